(* Properties C49 and C50: headers are read independently of each other. *)
From Coq Require Import Lia.
From Verif Require Import Base Utf8 Time Address MimeFields Fields Message Entity Email Envs EnvOk Rfc5322 CodecSpec RfcFields EmailSpec Complete CompleteFields LineSpec LineFacts.
Local Open Scope N_scope.

(* ---- C49 ---- *)
(* a message is made of some header lines and the rest: both are read as if they stood alone.
   Only trace headers depend on what is before them: they count at the start only. *)
Theorem C49_split : forall E pre post fs b, env_ok E -> Forall proper_line pre -> new_line post -> (f_trace E = true -> ~ starts_trace post) ->
  parse_message E (block_text pre ++ post) = Ok (fs, b) <->
  exists l1 l2, fs = l1 ++ l2 /\ parse_message E (block_text pre) = Ok (l1, None) /\ parse_message E post = Ok (l2, b).
Proof. exact message_split. Qed.
Print Assumptions C49_split.
(* each header line gives one field, whatever is around it *)
Theorem C49_lines : forall E ls post fs b, env_ok E -> Forall proper_line ls -> new_line post -> (f_trace E = true -> Forall (fun x => ~ trace_line x) ls /\ ~ starts_trace post) ->
  parse_message E (block_text ls ++ post) = Ok (fs, b) <->
  exists l l', fs = l ++ l' /\ Forall2 (fun x f => parse_message E (line_text x) = Ok ([f], None)) ls l /\ parse_message E post = Ok (l', b).
Proof. exact message_lines. Qed.
Print Assumptions C49_lines.
(* the order of headers of different names has no influence on the email, except on the order
   in which unknown headers of different names are listed *)
Theorem C49_order : forall E, env_ok E -> forall pre ls ls' post e, Forall proper_line pre -> Forall proper_line ls -> new_line post ->
  (f_trace E = true -> Forall (fun x => ~ trace_line x) ls /\ ~ starts_trace post) -> same_order ls ls' -> parse E (block_text pre ++ block_text ls ++ post) = Ok e ->
  exists u, same_order (unknown_fields e) u /\ parse E (block_text pre ++ block_text ls' ++ post) = Ok (with_unknown e u).
Proof. exact email_order. Qed.
Print Assumptions C49_order.

(* ---- C50 ---- *)
(* a header with an unknown name can be added and removed anywhere: nothing else changes *)
Theorem C50_added : forall E pre x post, env_ok E -> Forall proper_line pre -> proper_line x -> new_line post -> (f_trace E = true -> ~ starts_trace post) ->
  (forall name, In name (known_names E) -> ~ same_nocase (fst x) (bs name)) ->
  forall v e, clear_text_value (f_unrecognized_headers E) (textcode E) (snd x) v -> parse E (block_text pre ++ post) = Ok e ->
  exists u1 u2, unknown_fields e = u1 ++ u2 /\ parse E (block_text pre ++ line_text x ++ post) = Ok (with_unknown e (u1 ++ (fst x, v) :: u2)).
Proof. exact unknown_inserted. Qed.
Print Assumptions C50_added.
Theorem C50_removed : forall E pre x post, env_ok E -> Forall proper_line pre -> proper_line x -> new_line post -> (f_trace E = true -> ~ starts_trace post) ->
  (forall name, In name (known_names E) -> ~ same_nocase (fst x) (bs name)) ->
  forall e, parse E (block_text pre ++ line_text x ++ post) = Ok e ->
  exists u1 v u2, rfc_text_value (f_unrecognized_headers E) (textcode E) (snd x) v /\ unknown_fields e = u1 ++ (fst x, v) :: u2 /\
  parse E (block_text pre ++ post) = Ok (with_unknown e (u1 ++ u2)).
Proof. exact unknown_removed. Qed.
Print Assumptions C50_removed.

Definition ex_trace : list line := [(bs "Return-Path", bs " <a@b.c>"); (bs "Received", bs " by d; 1 Jan 2020 10:00 +0000")].
Definition ex_lines : list line :=
  [(bs "X-One", bs " 1"); (bs "From", bs " a@b.c"); (bs "X-Two", bs " 2" ++ CRLF ++ bs " folded"); (bs "Date", bs " 1 Jan 2020 10:00 +0000"); (bs "x-one", bs " 3"); (bs "Subject", bs " s")].
Definition ex_lines' : list line :=
  [(bs "X-Two", bs " 2" ++ CRLF ++ bs " folded"); (bs "Subject", bs " s"); (bs "Date", bs " 1 Jan 2020 10:00 +0000"); (bs "X-One", bs " 1"); (bs "x-one", bs " 3"); (bs "From", bs " a@b.c")].
Ltac is_lined := match goal with |- lined ?t => let t' := eval vm_compute in t in change (lined t') end; repeat first [apply lined_nil|apply lined_fold; [unfold rfc_WSP; lia|]|apply lined_char; [unfold rfc_VCHAR, rfc_WSP; lia|]].
Ltac is_chars := split; [discriminate|]; unfold chars; match goal with |- Forall _ ?t => let t' := eval vm_compute in t in change (Forall rfc_ftext t') end; unfold rfc_ftext; repeat (apply Forall_cons; [lia|]); apply Forall_nil.
Ltac not_named H X := cbn in H; repeat (destruct H as [<-|H]; [exfalso; vm_compute in X; discriminate X|]); destruct H.
Example C49_example :
  Forall proper_line ex_trace /\ Forall proper_line ex_lines /\ Forall (fun x => ~ trace_line x) ex_lines /\ new_line (CRLF ++ bs "body") /\ ~ starts_trace (CRLF ++ bs "body") /\
  same_order ex_lines ex_lines' /\
  exists e e', parse env_mime (block_text ex_trace ++ block_text ex_lines ++ CRLF ++ bs "body") = Ok e /\ parse env_mime (block_text ex_trace ++ block_text ex_lines' ++ CRLF ++ bs "body") = Ok e' /\
    unknown_fields e = [(bs "X-One", bs " 1"); (bs "X-Two", bs " 2 folded"); (bs "x-one", bs " 3")] /\
    e' = with_unknown e [(bs "X-Two", bs " 2 folded"); (bs "X-One", bs " 1"); (bs "x-one", bs " 3")].
Proof.
  unfold ex_trace, ex_lines.
  split; [do 2 (apply Forall_cons; [split; [is_chars|is_lined]|]); apply Forall_nil|]. split; [do 6 (apply Forall_cons; [split; [is_chars|is_lined]|]); apply Forall_nil|].
  split; [repeat (apply Forall_cons; [intros (name & H & X); not_named H X|]); apply Forall_nil|].
  split; [intros c r H; injection H as <- _; unfold rfc_WSP; lia|].
  split; [intros (name & n & r & H & X & Y); destruct n as [|c n]; [discriminate Y|injection Y as <- _; not_named H X]|].
  split.
  - intros n. unfold ex_lines'. cbn [filter]. unfold has_name. cbn [fst]. change (map fold_case (bs "x-one")) with (map fold_case (bs "X-One")).
    destruct (bytes_eqb (map fold_case n) (map fold_case (bs "X-One"))) eqn:H1; [apply TagNoCase.bytes_eqb_true in H1; rewrite H1; reflexivity|].
    destruct (bytes_eqb (map fold_case n) (map fold_case (bs "From"))) eqn:H2; [apply TagNoCase.bytes_eqb_true in H2; rewrite H2; reflexivity|].
    destruct (bytes_eqb (map fold_case n) (map fold_case (bs "X-Two"))) eqn:H3; [apply TagNoCase.bytes_eqb_true in H3; rewrite H3; reflexivity|].
    destruct (bytes_eqb (map fold_case n) (map fold_case (bs "Date"))) eqn:H4; [apply TagNoCase.bytes_eqb_true in H4; rewrite H4; reflexivity|].
    destruct (bytes_eqb (map fold_case n) (map fold_case (bs "Subject"))) eqn:H5; reflexivity.
  - eexists. eexists. split; [vm_compute; reflexivity|]. split; [vm_compute; reflexivity|]. split; reflexivity.
Qed.
(* a trace header counts at the start only: after another header, it is an unknown one *)
Example C49_trace_example :
  let received := line_text (bs "Received", bs " by d; 1 Jan 2020 10:00 +0000") in let subject := line_text (bs "Subject", bs " s") in
  exists d, parse_message env_mime (received ++ subject) = Ok ([FTrace None [d] []; FSubject (bs " s")], None) /\
    parse_message env_mime (subject ++ received) = Ok ([FSubject (bs " s"); FUnknown (bs "Received") (bs " by d; 1 Jan 2020 10:00 +0000")], None).
Proof. eexists. split; vm_compute; reflexivity. Qed.
Example C50_example :
  (forall name, In name (known_names env_mime) -> ~ same_nocase (bs "X-New") (bs name)) /\ clear_text_value (f_unrecognized_headers env_mime) (textcode env_mime) (bs " v") (bs " v") /\
  exists e, parse env_mime (block_text ex_lines ++ CRLF ++ bs "body") = Ok e /\
    parse env_mime (block_text ex_lines ++ line_text (bs "X-New", bs " v") ++ CRLF ++ bs "body") = Ok (with_unknown e (unknown_fields e ++ [(bs "X-New", bs " v")])).
Proof.
  split; [intros name H X; not_named H X|]. split.
  { apply (unstructured_intro (bs " v") (bs " v") []); [|constructor]. change (bs " v") with ((bs " " ++ [118] ++ []) : bytes). apply (utext_cons (bs " ") (bs " ") 118 [] []); [|unfold rfc_VCHAR; lia|constructor]. constructor. constructor. split; [discriminate|]. constructor; [unfold rfc_WSP; cbn; lia|constructor]. }
  eexists. split; vm_compute; reflexivity.
Qed.

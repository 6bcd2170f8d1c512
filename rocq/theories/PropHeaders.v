(* Properties C21, C22, C30, C40: header names, malformed headers, unstructured values, and the body. *)
From Coq Require Import Lia.
From Verif Require Import Base Utf8 Combinators Time Address MimeFields Fields Message Entity Email Envs EnvOk Rfc5322 CodecSpec
  RfcFields EmailSpec Complete CompleteFields LocalSpec Forward ForwardMessage LocalFacts RecaseFacts KeptFacts Writers WriteFacts.
Ltac compute_all := lazymatch goal with |- _ /\ _ => split; compute_all | _ => vm_compute; reflexivity end.

(* ---- C21: the capitalisation of header names ---- *)
Theorem C21_header_names_case_insensitive : forall E data data', env_ok E -> recased_text data data' ->
  same_outcome recased_email (parse E data) (parse E data').
Proof. exact recase_email. Qed.
Print Assumptions C21_header_names_case_insensitive.
Theorem C21_fields_case_insensitive : forall E pre n n' r, env_ok E -> header_start pre -> same_nocase n n' -> chars1 rfc_ftext n ->
  same_outcome (fun x y => Forall2 recased_field (fst x) (fst y) /\ snd x = snd y)
    (parse_message E (pre ++ n ++ [58%N] ++ r)) (parse_message E (pre ++ n' ++ [58%N] ++ r)).
Proof. exact recase_message. Qed.
Print Assumptions C21_fields_case_insensitive.
Definition line1 : bytes := bs " Jo <jo@x.org>" ++ CRLF.
Definition line2 : bytes := bs "1" ++ CRLF.
Definition line3 : bytes := bs " Fri, 5 May 2023 18:58:34 +0000" ++ CRLF.
Definition lower : bytes := bs "From:" ++ line1 ++ bs "x-a:" ++ line2 ++ bs "Date:" ++ line3.
Definition upper : bytes := bs "FROM:" ++ line1 ++ bs "X-A:" ++ line2 ++ bs "dATE:" ++ line3.
Ltac name_ok := split; [discriminate|apply Forall_forall; let x := fresh in let H := fresh in intros x H; vm_compute in H; unfold rfc_ftext; lia].
Ltac printable_ok := apply Forall_forall; let x := fresh in let H := fresh in intros x H; vm_compute in H; unfold printable, rfc_VCHAR, rfc_WSP; lia.
Ltac block_ok h := right; exists h; split; [apply header_block_b; vm_compute; reflexivity|reflexivity].
Example C21_example : recased_text lower upper
  /\ (exists e, parse env_default lower = Ok e /\ length (from e) = 1 /\ unknown_fields e = [(bs "x-a", bs "1")])
  /\ (exists e, parse env_default upper = Ok e /\ length (from e) = 1 /\ unknown_fields e = [(bs "X-A", bs "1")]).
Proof.
  split; [|split; eexists; compute_all].
  apply (recased_text_step [] (bs "From") (bs "FROM") (line1 ++ bs "x-a:" ++ line2 ++ bs "Date:" ++ line3)); [now left|name_ok|reflexivity|].
  apply (recased_text_step (bs "FROM: Jo <jo@x.org>" ++ CRLF) (bs "x-a") (bs "X-A") (line2 ++ bs "Date:" ++ line3)); [block_ok (bs "FROM: Jo <jo@x.org>")|name_ok|reflexivity|].
  apply (recased_text_step ((bs "FROM: Jo <jo@x.org>" ++ CRLF ++ bs "X-A:1") ++ CRLF) (bs "Date") (bs "dATE") line3); [block_ok (bs "FROM: Jo <jo@x.org>" ++ CRLF ++ bs "X-A:1")|name_ok|reflexivity|].
  exact (recased_text_refl upper).
Qed.

(* ---- C22: malformed headers are kept ---- *)
Theorem C22_malformed_kept : forall E pre n c v i e, env_ok E -> header_start pre -> chars1 rfc_ftext n ->
  (f_unrecognized_headers E = true -> no_encoded c) -> unfolded c v -> no_blank i -> malformed E (n ++ bs ":" ++ c ++ CRLF) ->
  parse E (pre ++ n ++ bs ":" ++ c ++ CRLF ++ i) = Ok e -> In (n, v) (unknown_fields e).
Proof. exact malformed_written. Qed.
Print Assumptions C22_malformed_kept.
(* an instance: a From header without "@" *)
Theorem C22_from_without_at_kept : forall E pre n c v i e, env_ok E -> header_start pre -> same_nocase n (bs "From") -> ~ In 64%N c ->
  (f_unrecognized_headers E = true -> no_encoded c) -> unfolded c v -> no_blank i ->
  parse E (pre ++ n ++ bs ":" ++ c ++ CRLF ++ i) = Ok e -> In (n, v) (unknown_fields e).
Proof. exact from_without_at_written. Qed.
Print Assumptions C22_from_without_at_kept.
Definition bad_value : bytes := bs " not an" ++ CRLF ++ bs " address".
Example C22_example : header_start (bs "From: Jo <jo@x.org>" ++ CRLF) /\ unfolded bad_value (bs " not an address") /\ no_blank (bs "Date:" ++ line3)
  /\ malformed env_default (bs "fRom:" ++ bad_value ++ CRLF)
  /\ exists e, parse env_default ((bs "From: Jo <jo@x.org>" ++ CRLF) ++ bs "fRom" ++ bs ":" ++ bad_value ++ CRLF ++ bs "Date:" ++ line3) = Ok e
     /\ unknown_fields e = [(bs "fRom", bs " not an address")] /\ length (from e) = 1.
Proof.
  split; [block_ok (bs "From: Jo <jo@x.org>")|]. split.
  { apply (unfolded_intro (bs " not an") [bs " address"]).
    - printable_ok.
    - constructor; [|constructor]. split; [printable_ok|]. split; [exists 32%N; eexists; split; [reflexivity|unfold rfc_WSP; lia]|].
      apply Exists_exists. exists 97%N. split; [vm_compute; tauto|unfold rfc_VCHAR; lia].
    - exists []. split; [reflexivity|]. split; [constructor|]. intros a b H. change (bs " not an address") with (bs " not an addres" ++ [115%N]) in H.
      apply app_inj_tail in H as [_ <-]. unfold rfc_WSP. lia. }
  split; [intros c r H; injection H as <- _; unfold rfc_WSP; lia|].
  split; [apply (from_malformed env_default (bs "fRom") bad_value); [reflexivity|]; intros H; vm_compute in H; lia|].
  eexists. compute_all.
Qed.

(* ---- C30: unstructured values ---- *)
Theorem C30_subject : forall E n c v i, same_nocase n (bs "Subject") -> (f_mime E = true -> no_encoded c) -> no_blank i ->
  field_subject E (n ++ bs ":" ++ c ++ CRLF ++ i) = Ok (i, v) <-> unfolded c v.
Proof. exact subject_unfolded. Qed.
Print Assumptions C30_subject.
Theorem C30_comments : forall E n c v i, same_nocase n (bs "Comments") -> (f_mime E = true -> no_encoded c) -> no_blank i ->
  field_comments E (n ++ bs ":" ++ c ++ CRLF ++ i) = Ok (i, v) <-> unfolded c v.
Proof. exact comments_unfolded. Qed.
Print Assumptions C30_comments.
Theorem C30_unknown : forall E n c v i, chars1 rfc_ftext n -> (f_unrecognized_headers E = true -> no_encoded c) -> no_blank i ->
  unknown E (n ++ bs ":" ++ c ++ CRLF ++ i) = Ok (i, (n, v)) <-> unfolded c v.
Proof. exact unknown_unfolded. Qed.
Print Assumptions C30_unknown.
Example C30_example : no_blank (bs "To:") /\ unfolded (bs " a" ++ CRLF ++ bs "  b ") (bs " a  b")
  /\ field_subject env_default (bs "sUBJECT" ++ bs ":" ++ (bs " a" ++ CRLF ++ bs "  b ") ++ CRLF ++ bs "To:") = Ok (bs "To:", bs " a  b").
Proof.
  split; [intros c r H; injection H as <- _; unfold rfc_WSP; lia|]. split; [|vm_compute; reflexivity].
  apply (unfolded_intro (bs " a") [bs "  b "]).
  - printable_ok.
  - constructor; [|constructor]. split; [printable_ok|]. split; [exists 32%N; eexists; split; [reflexivity|unfold rfc_WSP; lia]|].
    apply Exists_exists. exists 98%N. split; [vm_compute; tauto|unfold rfc_VCHAR; lia].
  - exists (bs " "). split; [reflexivity|]. split; [constructor; [vm_compute; tauto|constructor]|]. intros a b H. change (bs " a  b") with (bs " a  " ++ [98%N]) in H.
    apply app_inj_tail in H as [_ <-]. unfold rfc_WSP. lia.
Qed.

(* ---- C40: the body cannot influence the headers ---- *)
Theorem C40_fields : forall E h b b' fs x, env_ok E -> header_block h -> parse_message E (h ++ CRLF ++ CRLF ++ b) = Ok (fs, x) ->
  x = Some b /\ ((f_mime E = false -> body_text b') -> parse_message E (h ++ CRLF ++ CRLF ++ b') = Ok (fs, Some b')) /\
  (f_mime E = false -> ~ body_text b' -> exists e, parse_message E (h ++ CRLF ++ CRLF ++ b') = Err e).
Proof. exact body_no_influence. Qed.
Print Assumptions C40_fields.
Theorem C40_email : forall E h b b' e, env_ok E -> header_block h -> parse E (h ++ CRLF ++ CRLF ++ b) = Ok e ->
  match parse E (h ++ CRLF ++ CRLF ++ b') with
  | Ok e' => same_headers e e'
  | Err _ => f_mime E = false /\ ~ body_text b' \/ f_mime E = true /\ exists c v, transfer_decoded c b v /\ forall v', ~ transfer_decoded c b' v'
  | Crash _ => False
  end.
Proof. exact body_no_influence_email. Qed.
Print Assumptions C40_email.
Definition two_lines : bytes := bs "From: Jo <jo@x.org>" ++ CRLF ++ bs "Date: 5 May 2023 18:58:34 +0000".
Example C40_example : header_block two_lines
  /\ (exists e, parse env_default (two_lines ++ CRLF ++ CRLF ++ bs "Hello") = Ok e /\ body_of e = Some (bs "Hello") /\ length (from e) = 1)
  /\ (exists e, parse env_default (two_lines ++ CRLF ++ CRLF ++ bs "From: x@y" ++ CRLF ++ CRLF ++ bs "To: z") = Ok e
        /\ body_of e = Some (bs "From: x@y" ++ CRLF ++ CRLF ++ bs "To: z") /\ length (from e) = 1 /\ to e = None).
Proof. split; [apply header_block_b; vm_compute; reflexivity|]. split; eexists; compute_all. Qed.

(* Property C72: malformed headers change nothing but the unknown headers; malformed Sender headers. *)
From Coq Require Import Lia.
From Verif Require Import Base Utf8 Time Address MimeFields Fields Message Entity Email Envs EnvOk Rfc5322 CodecSpec RfcFields EmailSpec Complete CompleteFields LocalSpec Writers LineSpec ShownSpec ObsoleteSpec InertSpec InertFacts.
Local Open Scope N_scope.
Ltac compute_all := lazymatch goal with |- _ /\ _ => split; compute_all | _ => vm_compute; reflexivity end.

(* ---- C72 ---- *)
(* a malformed header can be added anywhere to an accepted mail: it becomes an unknown header *)
Theorem C72_added : forall E pre n c v post e, env_ok E -> debug E = false \/ f_mime E = false -> Forall proper_line pre -> new_line post -> (f_trace E = true -> ~ starts_trace post) ->
  chars1 rfc_ftext n -> (f_trace E = true -> forall name, In name tracing -> ~ same_nocase n (bs name)) -> (f_unrecognized_headers E = true -> no_encoded c) -> unfolded c v -> malformed E (n ++ bs ":" ++ c ++ CRLF) ->
  parse E (block_text pre ++ post) = Ok e ->
  exists u1 u2, unknown_fields e = u1 ++ u2 /\ parse E (block_text pre ++ n ++ bs ":" ++ c ++ CRLF ++ post) = Ok (with_unknown e (u1 ++ (n, v) :: u2)).
Proof. exact malformed_added. Qed.
Print Assumptions C72_added.
(* so a second date that is not read is no repetition of the first *)
Theorem C72_second_date : forall E pre n c v post e, env_ok E -> debug E = false \/ f_mime E = false -> Forall proper_line pre -> new_line post -> (f_trace E = true -> ~ starts_trace post) ->
  same_nocase n (bs "Date") -> undated c -> (f_unrecognized_headers E = true -> no_encoded c) -> unfolded c v -> parse E (block_text pre ++ post) = Ok e ->
  exists u1 u2, unknown_fields e = u1 ++ u2 /\ parse E (block_text pre ++ n ++ bs ":" ++ c ++ CRLF ++ post) = Ok (with_unknown e (u1 ++ (n, v) :: u2)).
Proof. exact second_date. Qed.
Print Assumptions C72_second_date.
(* a Sender header that is replaced by one without "@": the only author is taken for the sender *)
Theorem C72_sender : forall E pre g n c v post m e, env_ok E -> debug E = false \/ f_mime E = false -> Forall proper_line pre -> new_line post ->
  f_sender E = true -> clear_field E g (FSender m) -> same_nocase n (bs "Sender") -> ~ In 64 c -> (f_unrecognized_headers E = true -> no_encoded c) -> unfolded c v ->
  parse E (block_text pre ++ g ++ post) = Ok e -> forall a, from e = [a] ->
  exists u1 u2, unknown_fields e = u1 ++ u2 /\ parse E (block_text pre ++ n ++ bs ":" ++ c ++ CRLF ++ post) = Ok (with_sender e (Some a) (u1 ++ (n, v) :: u2)).
Proof. exact sender_assumed. Qed.
Print Assumptions C72_sender.
(* with several authors the mail is refused for want of a sender *)
Theorem C72_sender_missing : forall E pre g n c v post m e, env_ok E -> debug E = false \/ f_mime E = false -> Forall proper_line pre -> new_line post ->
  f_sender E = true -> clear_field E g (FSender m) -> same_nocase n (bs "Sender") -> ~ In 64 c -> (f_unrecognized_headers E = true -> no_encoded c) -> unfolded c v ->
  parse E (block_text pre ++ g ++ post) = Ok e -> length (from e) <> 1%nat -> parse E (block_text pre ++ n ++ bs ":" ++ c ++ CRLF ++ post) = Err (MissingHeader "Sender").
Proof. exact sender_missed. Qed.
Print Assumptions C72_sender_missing.

(* an optional header that is replaced by a malformed one is lost, and nothing else *)
Theorem C72_lost : forall E pre g f n c v post e, env_ok E -> debug E = false \/ f_mime E = false -> Forall proper_line pre -> new_line post -> (f_trace E = true -> ~ starts_trace post) ->
  clear_field E g f -> removable f -> chars1 rfc_ftext n -> (f_trace E = true -> forall name, In name tracing -> ~ same_nocase n (bs name)) -> (f_unrecognized_headers E = true -> no_encoded c) -> unfolded c v -> malformed E (n ++ bs ":" ++ c ++ CRLF) ->
  parse E (block_text pre ++ g ++ post) = Ok e ->
  exists e0 u1 u2, grown f e0 e /\ unknown_fields e0 = u1 ++ u2 /\ parse E (block_text pre ++ n ++ bs ":" ++ c ++ CRLF ++ post) = Ok (with_unknown e0 (u1 ++ (n, v) :: u2)).
Proof. exact optional_lost. Qed.
Print Assumptions C72_lost.
(* headers that are malformed: an identifier without "@", a sender without "@" *)
Theorem C72_malformed_id : forall E name n c, In name identifying -> same_nocase n (bs name) -> ~ In 64 c -> malformed E (n ++ bs ":" ++ c ++ CRLF).
Proof. exact id_malformed. Qed.
Print Assumptions C72_malformed_id.
Theorem C72_malformed_sender : forall E n c, same_nocase n (bs "Sender") -> ~ In 64 c -> malformed E (n ++ bs ":" ++ c ++ CRLF).
Proof. exact sender_malformed. Qed.
Print Assumptions C72_malformed_sender.

Definition sent_by (authors value : bytes) : bytes := bs "From: " ++ authors ++ CRLF ++ bs "Sender:" ++ value ++ CRLF ++ bs "Date: 5 May 2023 18:58 +0000" ++ CRLF ++ CRLF.
Definition at_xy : email_address := {| a_local_part := bs "x"; a_domain := bs "y" |}.
Example C72_example : clear_field env_default (bs "Sender:" ++ bs " <x@y>" ++ CRLF) (FSender {| m_name := None; m_address := at_xy |}) /\ ~ In 64 (bs " the boss") /\ no_encoded (bs " the boss") /\
  unfolded (bs " the boss") (bs " the boss") /\
  exists e e' e2, parse env_default (sent_by (bs "a@b") (bs " <x@y>")) = Ok e /\ option_map (fun m => a_local_part (m_address m)) (sender e) = Some (bs "x") /\
    parse env_default (sent_by (bs "a@b") (bs " the boss")) = Ok e' /\ option_map (fun m => a_local_part (m_address m)) (sender e') = Some (bs "a") /\ unknown_fields e' = [(bs "Sender", bs " the boss")] /\
    parse env_default (sent_by (bs "a@b, c@d") (bs " <x@y>")) = Ok e2 /\ parse env_default (sent_by (bs "a@b, c@d") (bs " the boss")) = Err (MissingHeader "Sender").
Proof.
  split; [|split; [|split; [|split]]].
  - apply clear_sender; [reflexivity|]. apply (header_intro "Sender" _ (bs "Sender") (bs " <x@y>")); [reflexivity|]. split.
    + apply clear_angle. apply (angle_addr_intro _ (bs " ") (bs "x@y") at_xy []); [|apply (addr_spec_intro _ (bs "x") (bs "x") (bs "y") (bs "y"))|constructor].
      * apply oCFWS_some, (CFWS_fws _ (bs " ")), FWS_plain. split; [discriminate|]. constructor; [now left|constructor].
      * apply local_dot_atom, (dot_atom_intro _ [] (bs "x") []); [constructor| |constructor]. apply (dot_atom_text_intro _ (bs "x") []); [|constructor]. split; [discriminate|]. constructor; [|constructor]. left. unfold rfc_ALPHA. vm_compute. right. split; discriminate.
      * apply domain_dot_atom, (dot_atom_intro _ [] (bs "y") []); [constructor| |constructor]. apply (dot_atom_text_intro _ (bs "y") []); [|constructor]. split; [discriminate|]. constructor; [|constructor]. left. unfold rfc_ALPHA. vm_compute. right. split; discriminate.
    + intros a w Ha [Nw Hw]. exfalso. destruct (exists_last Nw) as (w' & x & ->). apply Forall_app in Hw as [_ Hw]. inversion Hw as [|x' l Hx _]; subst. rewrite app_assoc in Ha.
      change (bs " <x@y>") with (bs " <x@y" ++ [62]) in Ha. apply app_inj_tail in Ha as [_ <-]. unfold rfc_WSP in Hx. lia.
  - intros H. vm_compute in H. lia.
  - intros a b Ha. assert (I : In 61 (bs " the boss")) by (rewrite Ha; apply in_or_app; right; now left). vm_compute in I. lia.
  - apply (unfolded_intro (bs " the boss") []); [|constructor|].
    + apply Forall_forall. intros x Hx. vm_compute in Hx. unfold printable, rfc_VCHAR, rfc_WSP. lia.
    + exists []. split; [reflexivity|]. split; [constructor|]. intros a b H. change (bs " the boss") with (bs " the bos" ++ [115]) in H. apply app_inj_tail in H as [_ <-]. unfold rfc_WSP. lia.
  - do 3 eexists. compute_all.
Qed.
Example C72_example_date : undated (bs " 5 May 2023 18:58 GMT") /\ exists e, parse env_default (bs "Date: 5 May 2023 18:58 +0000" ++ CRLF ++ bs "From: a@b" ++ CRLF ++ CRLF) = Ok e /\
  parse env_default (bs "Date: 5 May 2023 18:58 +0000" ++ CRLF ++ bs "Date: 5 May 2023 18:58 GMT" ++ CRLF ++ bs "From: a@b" ++ CRLF ++ CRLF) = Ok (with_unknown e [(bs "Date", bs " 5 May 2023 18:58 GMT")]).
Proof.
  split; [|eexists; compute_all].
  left. split; intros Hx; vm_compute in Hx; lia.
Qed.
Definition with_id (i : bytes) : bytes := bs "Date: 5 May 2023 18:58 +0000" ++ CRLF ++ bs "Message-ID:" ++ i ++ CRLF ++ bs "From: a@b" ++ CRLF ++ CRLF.
Example C72_example_id : malformed env_default (bs "Message-ID:" ++ bs " <1234>" ++ CRLF) /\ exists e e', parse env_default (with_id (bs " <12@34>")) = Ok e /\ message_id_of e = Some (bs "12", bs "34") /\ removable (FMessageId (bs "12", bs "34")) /\
  parse env_default (with_id (bs " <1234>")) = Ok e' /\ message_id_of e' = None /\ unknown_fields e' = [(bs "Message-ID", bs " <1234>")].
Proof.
  split; [apply (C72_malformed_id env_default "Message-ID" (bs "Message-ID") (bs " <1234>")); [now left|reflexivity|intros X; vm_compute in X; lia]|].
  do 2 eexists. split; [vm_compute; reflexivity|]. split; [reflexivity|]. split; [exact I|]. compute_all.
Qed.

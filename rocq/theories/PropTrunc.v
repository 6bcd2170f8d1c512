(* Property C73: mails that are cut off. *)
From Coq Require Import Lia.
From Verif Require Import Base Utf8 Time Address MimeFields Fields Message Entity Email Envs EnvOk Rfc5322 CodecSpec RfcFields EmailSpec LineSpec LocalSpec MultipartSpec TruncSpec TruncFacts.
Local Open Scope N_scope.
Ltac is_lined := match goal with |- lined ?t => let t' := eval vm_compute in t in change (lined t') end; repeat first [apply lined_nil|apply lined_fold; [unfold rfc_WSP; lia|]|apply lined_char; [unfold rfc_VCHAR, rfc_WSP; lia|]].
Ltac is_chars := split; [discriminate|]; unfold chars; match goal with |- Forall _ ?t => let t' := eval vm_compute in t in change (Forall rfc_ftext t') end; unfold rfc_ftext; repeat (apply Forall_cons; [lia|]); apply Forall_nil.
Ltac compute_all := lazymatch goal with |- _ /\ _ => split; compute_all | _ => vm_compute; reflexivity end.

(* ---- C73 ---- *)
(* a mail cut inside of a line of its headers is always refused, with this error *)
Theorem C73_inside : forall E d, env_ok E -> debug E = false \/ f_mime E = false -> in_headers d -> inside_line d -> parse E d = Err (Explicit "TAG ERROR: Headers must be followed by a CRLF sequence.").
Proof. exact cut_inside. Qed.
Print Assumptions C73_inside.
(* a mail cut between two headers is accepted with what was read so far, unless a mandatory header is among the rest *)
Theorem C73_between : forall E pre post e, env_ok E -> Forall proper_line pre -> new_line post -> (f_trace E = true -> ~ starts_trace post) -> parse E (block_text pre ++ post) = Ok e ->
  (exists e', parse E (block_text pre) = Ok e' /\ left_email e' e) \/ exists n, mandatory_name n /\ parse E (block_text pre) = Err (MissingHeader n).
Proof. exact cut_between. Qed.
Print Assumptions C73_between.
(* cut after the last header, all headers are there *)
Theorem C73_after : forall E pre b e, env_ok E -> Forall proper_line pre -> parse E (block_text pre ++ CRLF ++ b) = Ok e ->
  exists e', parse E (block_text pre) = Ok e' /\ body_of e' = None /\ same_headers e e' /\ match mime_entity e' with Some r => e_value r = [] | None => True end.
Proof. exact cut_after. Qed.
Print Assumptions C73_after.
(* without mime, a mail cut in the body is accepted and only the body is shorter, unless a line end is cut in two *)
Theorem C73_body : forall E h b1 b2 e, env_ok E -> f_mime E = false -> header_block h -> parse E (h ++ CRLF ++ CRLF ++ b1 ++ b2) = Ok e ->
  (forall c, b1 <> c ++ [13]) -> parse E (h ++ CRLF ++ CRLF ++ b1) = Ok (with_body e (Some b1)).
Proof. exact cut_body. Qed.
Print Assumptions C73_body.
Theorem C73_body_cr : forall E h c b2 e, env_ok E -> f_mime E = false -> header_block h -> parse E (h ++ CRLF ++ CRLF ++ (c ++ [13]) ++ b2) = Ok e ->
  parse E (h ++ CRLF ++ CRLF ++ c ++ [13]) = Err (Explicit "TAG ERROR: In a body, a line must end with a CRLF sequence.").
Proof. exact cut_body_cr. Qed.
Print Assumptions C73_body_cr.

(* a multipart cut before the end of its first closing delimiter is refused *)
Theorem C73_multipart : forall E r b, e_mime_type r = CMultipart -> map_get (e_parameters r) (bs "boundary") = Some b -> ~ occurs (closing_delimiter b) (e_value r) ->
  entity E r = Err (Unknown "closing boundary not found").
Proof. exact cut_multipart. Qed.
Print Assumptions C73_multipart.
Definition multipart_of (v : bytes) : raw_entity_t :=
  {| e_mime_type := CMultipart; e_subtype := bs "mixed"; e_description := None; e_id := None; e_parameters := [(bs "boundary", bs "b")]; e_disposition := None; e_value := v; e_additional_headers := [] |}.
Example C73_example_multipart : entity env_mime (multipart_of (bs "--b" ++ CRLF ++ CRLF ++ bs "x" ++ CRLF ++ bs "--b" ++ CRLF ++ CRLF ++ bs "y")) = Err (Unknown "closing boundary not found") /\
  entity env_mime (multipart_of (bs "--b" ++ CRLF ++ CRLF ++ bs "x" ++ CRLF ++ bs "--b--")) = Err (Unknown "closing boundary not found").
Proof. compute_all. Qed.
(* that nothing else is accepted than multiparts with all their parts is false: a part can end with a closing delimiter *)
Theorem C73_multipart_cut_refuted : exists v w x y, entity env_mime (multipart_of (v ++ w)) = Ok (EMultipart (bs "mixed") [x; y]) /\ exists x', entity env_mime (multipart_of v) = Ok (EMultipart (bs "mixed") [x']) /\ x' <> x.
Proof.
  exists (bs "--b" ++ CRLF ++ CRLF ++ bs "x" ++ CRLF ++ bs "--b--" ++ CRLF), (CRLF ++ bs "--b" ++ CRLF ++ CRLF ++ bs "y" ++ CRLF ++ bs "--b--" ++ CRLF). do 2 eexists. split; [vm_compute; reflexivity|]. eexists. split; [vm_compute; reflexivity|]. discriminate.
Qed.
Print Assumptions C73_multipart_cut_refuted.

Definition whole : bytes := bs "From: a@b" ++ CRLF ++ bs "Date: 5 May 2023 18:58 +0000" ++ CRLF ++ bs "Subject: pay" ++ CRLF ++ bs " not" ++ CRLF ++ bs "Sender: c@d" ++ CRLF ++ CRLF ++ bs "hello" ++ CRLF.
(* in a folded header, a cut after a line end changes the value *)
Theorem C73_fold_kept_refuted : exists d r e e', whole = d ++ CRLF ++ r /\ parse env_default whole = Ok e /\ parse env_default (d ++ CRLF) = Ok e' /\ ~ kept (subject e') (subject e).
Proof.
  exists (bs "From: a@b" ++ CRLF ++ bs "Date: 5 May 2023 18:58 +0000" ++ CRLF ++ bs "Subject: pay"). do 3 eexists. split; [vm_compute; reflexivity|]. split; [vm_compute; reflexivity|]. split; [vm_compute; reflexivity|]. intros [X|X]; vm_compute in X; discriminate X.
Qed.
Print Assumptions C73_fold_kept_refuted.

Example C73_example : in_headers (bs "From: a@b" ++ CRLF ++ bs "Dat") /\ inside_line (bs "From: a@b" ++ CRLF ++ bs "Dat") /\
  Forall proper_line [(bs "From", bs " a@b"); (bs "Date", bs " 5 May 2023 18:58 +0000")] /\ header_block (bs "From: a@b") /\
  exists e e' r, whole = block_text [(bs "From", bs " a@b"); (bs "Date", bs " 5 May 2023 18:58 +0000")] ++ r /\ parse env_default whole = Ok e /\ option_map (fun m => a_local_part (m_address m)) (sender e) = Some (bs "c") /\
    parse env_default (block_text [(bs "From", bs " a@b"); (bs "Date", bs " 5 May 2023 18:58 +0000")]) = Ok e' /\ option_map (fun m => a_local_part (m_address m)) (sender e') = Some (bs "a") /\
    parse env_default (block_text [(bs "From", bs " a@b")]) = Err (MissingHeader "Date") /\
    parse env_default (bs "From: a@b" ++ CRLF ++ bs "Dat") = Err (Explicit "TAG ERROR: Headers must be followed by a CRLF sequence.").
Proof.
  assert (NC : forall l a b, existsb (fun k => starts_with (skipn k l) (CRLF ++ CRLF)) (seq 0 (S (length l))) = false -> l <> a ++ CRLF ++ CRLF ++ b).
  { intros l a b H ->. assert (X : existsb (fun k => starts_with (skipn k (a ++ CRLF ++ CRLF ++ b)) (CRLF ++ CRLF)) (seq 0 (S (length (a ++ CRLF ++ CRLF ++ b)))) = true).
    { apply existsb_exists. exists (length a). split; [apply in_seq; rewrite app_length; unfold bytes, byte in *; lia|]. rewrite skipn_app, skipn_all, Nat.sub_diag. destruct b; reflexivity. }
    congruence. }
  split; [|split; [|split; [|split]]].
  - split; [intros x X; vm_compute in X; discriminate X|]. intros a b. apply NC. vm_compute. reflexivity.
  - split; [discriminate|]. intros a X. change (bs "From: a@b" ++ CRLF ++ bs "Dat") with ((bs "From: a@b" ++ CRLF ++ bs "Da") ++ [116]) in X. change (a ++ CRLF) with (a ++ [13] ++ [10]) in X. rewrite (app_assoc a) in X. apply app_inj_tail in X as [_ X]. discriminate X.
  - do 2 (apply Forall_cons; [split; [is_chars|is_lined]|]); apply Forall_nil.
  - split; [discriminate|]. split; [intros x X; vm_compute in X; discriminate X|]. intros a b. apply NC. vm_compute. reflexivity.
  - do 3 eexists. compute_all.
Qed.
Definition head_lines : bytes := bs "From: a@b" ++ CRLF ++ bs "Date: 5 May 2023 18:58 +0000".
Example C73_example_body : exists e, parse env_default (head_lines ++ CRLF ++ CRLF ++ bs "hello" ++ CRLF) = Ok e /\ parse env_default (head_lines ++ CRLF ++ CRLF ++ bs "hel") = Ok (with_body e (Some (bs "hel"))) /\
  parse env_default (head_lines ++ CRLF ++ CRLF ++ bs "hello" ++ [13]) = Err (Explicit "TAG ERROR: In a body, a line must end with a CRLF sequence.") /\
  parse env_default (head_lines ++ CRLF) = Ok (with_body e None) /\ f_mime env_default = false.
Proof. eexists. compute_all. Qed.

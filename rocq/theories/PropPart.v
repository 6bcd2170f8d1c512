(* Property C56: which texts are parts of a multipart, and the trees they stand for, exactly. *)
From Coq Require Import Lia.
From Verif Require Import Base Utf8 Time Address MimeFields Fields Message Entity Email Envs EnvOk Rfc5322 Rfc2047 CodecSpec RfcFields EmailSpec Complete CompleteFields LineSpec MultipartSpec EntitySpec ParamSpec OrderFacts
  CutSpec TreeSpec MimeExactSpec PartExactSpec PartExactFacts PartExactTrees.
Local Open Scope N_scope.

(* ---- C56: parts ---- *)
(* raw_entity succeeds on the texts of the grammar whose content can be decoded, and only on them *)
Theorem C56_exact : forall E, env_ok E -> f_mime E = true -> debug E = false -> forall i,
  (exists r, raw_entity E i = Ok r) <-> exists hs b v, part_text_read E i hs b /\ transfer_decoded (encoding_of (last_some of_encoding hs)) b v.
Proof. exact part_iff. Qed.
Print Assumptions C56_exact.
Theorem C56_rejected : forall E, env_ok E -> f_mime E = true -> debug E = false -> forall i,
  (exists e, raw_entity E i = Err e) <-> ~ exists hs b v, part_text_read E i hs b /\ transfer_decoded (encoding_of (last_some of_encoding hs)) b v.
Proof. exact part_rejected_iff. Qed.
Print Assumptions C56_rejected.
(* the part returned is one of the text *)
Theorem C56_part : forall E, env_ok E -> f_mime E = true -> debug E = false -> forall i r, raw_entity E i = Ok r -> exists hs b, part_text_read E i hs b /\ part_of hs b r.
Proof. exact part_back. Qed.
Print Assumptions C56_part.
(* any other one of the text is the same, up to the order of parameters; the text is read in one way *)
Theorem C56_same : forall E, env_ok E -> f_mime E = true -> debug E = false -> forall i hs b r, part_text_read E i hs b -> part_of hs b r -> exists r', raw_entity E i = Ok r' /\ same_entity r r'.
Proof. exact part_same_read. Qed.
Print Assumptions C56_same.
Theorem C56_one : forall E, env_ok E -> f_mime E = true -> debug E = false -> forall i hs b hs' b', part_text_read E i hs b -> part_text_read E i hs' b' ->
  b = b' /\ exists l, Forall2 same_header hs l /\ Forall2 same_header hs' l.
Proof. exact part_reading_one. Qed.
Print Assumptions C56_one.
(* one header *)
Theorem C56_header : forall E, env_ok E -> f_mime E = true -> debug E = false -> forall c i, new_line i -> (exists h, entity_header_parser E (c ++ i) = Ok (i, h)) <-> exists h, part_read E c h.
Proof. exact part_header_iff. Qed.
Print Assumptions C56_header.
(* a part is rejected if a header with parameters is followed by a folded line that continues it
   with anything but a parameter *)
Theorem C56_cut : forall E, env_ok E -> f_mime E = true -> debug E = false -> forall c hs c0 w z i, many_of (part_read E) c hs -> part_cut E c0 (w :: z ++ CRLF) -> rfc_WSP w -> new_line i ->
  exists err, raw_entity E (c ++ c0 ++ (w :: z ++ CRLF) ++ i) = Err err.
Proof. exact part_cut_rejected. Qed.
Print Assumptions C56_cut.

(* ---- multiparts and trees ---- *)
(* a multipart is read if and only if it has a boundary, can be cut, and every piece is a part *)
Theorem C56_multipart : forall E, env_ok E -> f_mime E = true -> debug E = false -> forall r, e_mime_type r = CMultipart -> (exists x, entity E r = Ok x) <->
  exists b parts, map_get (e_parameters r) (bs "boundary") = Some b /\ cut_parts b (e_value r) parts /\
    Forall (fun i => exists hs t v, part_text_read E i hs t /\ transfer_decoded (encoding_of (last_some of_encoding hs)) t v) parts.
Proof. exact multipart_iff. Qed.
Print Assumptions C56_multipart.
(* parsing an entity and its parts, at any depth, gives a tree if and only if its value has that
   shape *)
Theorem C56_tree : forall E, env_ok E -> f_mime E = true -> debug E = false -> forall r t, shows E r t <-> shape E (e_mime_type r, e_subtype r, e_parameters r) (e_value r) t.
Proof. exact shows_iff. Qed.
Print Assumptions C56_tree.
Theorem C56_part_tree : forall E, env_ok E -> f_mime E = true -> debug E = false -> forall i t, (exists r, raw_entity E i = Ok r /\ shows E r t) <->
  exists hs b v, part_text_read E i hs b /\ transfer_decoded (encoding_of (last_some of_encoding hs)) b v /\ shape E (type_of (last_some of_type hs)) v t.
Proof. exact part_tree_iff. Qed.
Print Assumptions C56_part_tree.
(* whole mails *)
Theorem C56_mail_tree : forall E, env_ok E -> f_mime E = true -> debug E = false -> forall d t, (exists e r, parse E d = Ok e /\ mime_entity e = Some r /\ shows E r t) <->
  exists fs b e r, mime_message_read E d fs b /\ email_of E fs b e /\ mime_entity e = Some r /\ shape E (type_of (only is_content_type fs)) (e_value r) t.
Proof. exact mail_tree_iff. Qed.
Print Assumptions C56_mail_tree.

(* a part with a MIME-Version, a type that is none, two descriptions, and an encoding; a mail with
   that part and another multipart; a part whose encoding is continued by a comment in the next
   line *)
Definition ex_heads : bytes :=
  bs "MIME-Version: 1.0" ++ CRLF ++ bs "Content-Type: text (c)" ++ CRLF ++ bs "content-description: a" ++ CRLF ++ bs "Content-Description: =?utf-8?Q?b_?= c" ++ CRLF.
Definition ex_code : bytes := bs "Content-Transfer-Encoding: base64" ++ CRLF.
Definition ex_part : bytes := ex_heads ++ ex_code ++ CRLF ++ bs "aGk=".
Definition ex_multi : bytes :=
  bs "Content-Type: multipart/x; boundary=i" ++ CRLF ++ CRLF ++ bs "pre" ++ CRLF ++ bs "--i" ++ CRLF ++ bs "Content-Type: image/png" ++ CRLF ++ CRLF ++ bs "--i" ++ CRLF ++ bs "--i" ++ CRLF ++ CRLF ++ bs "y" ++ CRLF ++ bs "--i--" ++ CRLF.
Definition ex_mail : bytes :=
  bs "From: a@b.c" ++ CRLF ++ bs "Date: 5 May 2003 18:58:34 +0000" ++ CRLF ++ bs "Content-Type: multipart/mixed; boundary=o" ++ CRLF ++ CRLF ++ bs "--o" ++ CRLF ++ ex_part ++ CRLF ++ bs "--o" ++ CRLF ++ ex_multi ++ CRLF ++ bs "--o--" ++ CRLF.
Definition ex_tree : tree :=
  Parts (bs "mixed") [Text (bs "plain") (bs "hi"); Parts (bs "x") [Data CImage (bs "png") []; Text (bs "plain") []; Text (bs "plain") (bs "y")]].
Example C56_example : env_ok env_mime /\ f_mime env_mime = true /\ debug env_mime = false /\
  (exists r hs b, raw_entity env_mime ex_part = Ok r /\ part_text_read env_mime ex_part hs b /\ part_of hs b r /\ e_value r = bs "hi" /\ e_description r = Some (bs " b  c") /\
     e_additional_headers r = [(bs "MIME-Version", bs " 1.0"); (bs "Content-Type", bs " text (c)")] /\ e_mime_type r = CText /\
     entity_header_parser env_mime (ex_code ++ CRLF) = Ok (CRLF, HEncoding Base64Enc)) /\
  (exists e r, parse env_mime ex_mail = Ok e /\ mime_entity e = Some r /\ e_mime_type r = CMultipart /\ shows env_mime r ex_tree) /\
  new_line CRLF /\ many_of (part_read env_mime) [] [] /\ part_cut env_mime ex_code (bs " (c)" ++ CRLF) /\
  exists err, raw_entity env_mime (ex_code ++ (bs " (c)" ++ CRLF) ++ CRLF) = Err err.
Proof.
  split; [exact env_mime_ok|]. split; [reflexivity|]. split; [reflexivity|]. split; [|split; [|split; [|split; [constructor|split]]]].
  - destruct (raw_entity env_mime ex_part) as [r|err|k] eqn:P; [|vm_compute in P; discriminate..]. pose proof P as P'. apply (part_back env_mime env_mime_ok eq_refl eq_refl) in P' as (hs & b & H1 & H2).
    exists r, hs, b. split; [reflexivity|]. split; [exact H1|]. split; [exact H2|]. vm_compute in P. injection P as <-. split; [reflexivity|]. split; [reflexivity|]. split; [reflexivity|]. split; [reflexivity|]. vm_compute. reflexivity.
  - destruct (parse env_mime ex_mail) as [e|err|k] eqn:P; [|vm_compute in P; discriminate..]. vm_compute in P. injection P as <-. eexists _, _. split; [reflexivity|]. split; [reflexivity|]. split; [reflexivity|].
    unfold ex_tree. eapply shows_parts; [vm_compute; reflexivity|]. constructor; [apply shows_text; vm_compute; reflexivity|]. constructor; [|constructor].
    eapply shows_parts; [vm_compute; reflexivity|]. constructor; [|constructor; [apply shows_text; vm_compute; reflexivity|constructor; [apply shows_text; vm_compute; reflexivity|constructor]]].
    match goal with |- shows _ ?r _ => exact (shows_data env_mime r eq_refl ltac:(discriminate)) end.
  - intros c r X [Y|Y]; rewrite Y in X; discriminate X.
  - apply (part_cut_encoding _ _ Base64Enc). apply (header_intro _ _ (bs "Content-Transfer-Encoding") (bs " base64")); [reflexivity|]. apply (clear_encoding_intro (bs " ") (bs "base64") Base64Enc []).
    + apply oCFWS_some, (CFWS_fws _ (bs " ")). apply FWS_plain. split; [discriminate|]. constructor; [now left|constructor].
    + apply (clear_known _ _ (bs "base64")); [cbn; tauto|reflexivity].
    + apply (inline_blank [] []); constructor.
  - eexists. vm_compute. reflexivity.
Qed.

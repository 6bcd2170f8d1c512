(* Properties C33, C34, C45: multipart bodies and entities. *)
From Verif Require Import Base Utf8 Combinators MimeFields Entity Envs EnvOk Rfc5322 MultipartSpec EntitySpec MultipartRound EntityFacts.
Ltac compute_all := lazymatch goal with |- _ /\ _ => split; compute_all | _ => vm_compute; reflexivity end.

(* ---- C33: splitting inverts joining ---- *)
(* RFC 2046 does not allow CR in a boundary. [multipart_text] allows any number of parts,
   none included, and any preamble and epilogue without delimiter. *)
Theorem C33_split_inverts_join : forall E (b : bytes) parts text r es, ~ In 13%N b -> Forall (clean b) parts -> multipart_text b parts text ->
  e_mime_type r = CMultipart -> map_get (e_parameters r) (bs "boundary") = Some b -> e_value r = text ->
  entity E r = Ok (EMultipart (e_subtype r) es) <-> Forall2 (fun p e => raw_entity E p = Ok e) parts es.
Proof. exact multipart_inverts. Qed.
Print Assumptions C33_split_inverts_join.
(* errors too are those of the parts *)
Theorem C33_parts : forall E (b : bytes) parts text (params : list (bytes * bytes)), ~ In 13%N b -> Forall (clean b) parts -> multipart_text b parts text ->
  map_get params (bs "boundary") = Some b -> parse_multipart E text params = raw_entities E parts.
Proof. exact multipart_back. Qed.
Print Assumptions C33_parts.
Definition multipart_entity (b text : bytes) : raw_entity_t :=
  {| e_mime_type := CMultipart; e_subtype := bs "mixed"; e_description := None; e_id := None;
     e_parameters := [(bs "boundary", b)]; e_disposition := None; e_value := text; e_additional_headers := [] |}.
Definition plain_part (v : bytes) : raw_entity_t :=
  {| e_mime_type := CText; e_subtype := bs "plain"; e_description := None; e_id := None;
     e_parameters := [(bs "charset", bs "us-ascii")]; e_disposition := None; e_value := v; e_additional_headers := [] |}.
Example C33_example :
  Forall (clean (bs "b")) [CRLF ++ bs "x"; CRLF ++ bs "-b" ; []] /\
  multipart_text (bs "b") [CRLF ++ bs "x"; CRLF ++ bs "-b" ; []]
    (bs "hello" ++ (CRLF ++ bs "--b" ++ CRLF ++ CRLF ++ bs "x" ++ CRLF ++ bs "--b" ++ CRLF ++ CRLF ++ bs "-b" ++ CRLF ++ bs "--b" ++ CRLF)
       ++ (CRLF ++ bs "--b--" ++ CRLF) ++ bs "bye" ++ CRLF ++ bs "--b--" ++ CRLF) /\
  entity env_mime (multipart_entity (bs "b") (bs "hello" ++ (CRLF ++ bs "--b" ++ CRLF ++ CRLF ++ bs "x" ++ CRLF ++ bs "--b" ++ CRLF ++ CRLF ++ bs "-b" ++ CRLF ++ bs "--b" ++ CRLF)
       ++ (CRLF ++ bs "--b--" ++ CRLF) ++ bs "bye" ++ CRLF ++ bs "--b--" ++ CRLF))
  = Ok (EMultipart (bs "mixed") [plain_part (bs "x"); plain_part (bs "-b"); plain_part []]).
Proof.
  split; [|split; [|vm_compute; reflexivity]].
  - repeat constructor; unfold clean; apply not_occurs; vm_compute; reflexivity.
  - apply multipart_preamble; [unfold clean|]; apply not_occurs; vm_compute; reflexivity.
Qed.

(* ---- C34: nothing after the closing delimiter matters ---- *)
Theorem C34_epilogue_ignored : forall E (b : bytes) parts text text' (params : list (bytes * bytes)), ~ In 13%N b -> Forall (clean b) parts ->
  multipart_text b parts text -> multipart_text b parts text' -> map_get params (bs "boundary") = Some b ->
  parse_multipart E text params = parse_multipart E text' params.
Proof. exact epilogue_ignored. Qed.
Print Assumptions C34_epilogue_ignored.
(* for epilogues that contain the delimiter the claim is false *)
Theorem C34_epilogue_ignored_refuted : exists b parts text epilogue, Forall (clean b) parts /\ multipart_text b parts (text ++ closing_delimiter b) /\
  entity env_mime (multipart_entity b (text ++ closing_delimiter b)) <> entity env_mime (multipart_entity b (text ++ closing_delimiter b ++ epilogue)).
Proof.
  exists (bs "b"), [CRLF ++ bs "x"], (bs "--b" ++ CRLF ++ CRLF ++ bs "x"), (CRLF ++ bs "--b" ++ CRLF ++ CRLF ++ bs "y" ++ CRLF ++ bs "--b--" ++ CRLF).
  split; [|split].
  - repeat constructor; unfold clean; apply not_occurs; vm_compute; reflexivity.
  - apply (multipart_start (bs "b") _ (CRLF ++ bs "x") [] []); [reflexivity|apply not_occurs; vm_compute; reflexivity].
  - vm_compute. discriminate.
Qed.
Print Assumptions C34_epilogue_ignored_refuted.

(* ---- C45: what an entity is parsed to ---- *)
Theorem C45_entity_meaning : forall E r e, env_ok E -> entity E r = Ok e -> entity_meaning E r e.
Proof. exact entity_sound. Qed.
Print Assumptions C45_entity_meaning.
Theorem C45_part_meaning : forall E i r, env_ok E -> raw_entity E i = Ok r -> exists hs b, part_text E i hs b /\ part_of hs b r.
Proof. exact raw_entity_sound. Qed.
Print Assumptions C45_part_meaning.
Example C45_example :
  entity env_mime {| e_mime_type := CText; e_subtype := bs "html"; e_description := None; e_id := None;
     e_parameters := [(bs "charset", bs "ISO-8859-1")]; e_disposition := None; e_value := [233%N]; e_additional_headers := [] |}
   = Ok (EText (bs "html") [195; 169]%N)
  /\ exists r, raw_entity env_mime (bs "Content-Type: image/png; a=b" ++ CRLF ++ bs "content-type: text/x" ++ CRLF ++ bs "content-transfer-encoding:base64" ++ CRLF ++ CRLF ++ bs "aGV5") = Ok r
     /\ e_mime_type r = CText /\ e_subtype r = bs "x" /\ e_parameters r = [] /\ e_value r = bs "hey".
Proof. split; [vm_compute; reflexivity|]. eexists. compute_all. Qed.

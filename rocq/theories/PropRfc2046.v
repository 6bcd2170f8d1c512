(* Property C67: what the parser makes of the multipart bodies of RFC 2046. *)
From Verif Require Import Base Combinators MimeFields Fields Entity Envs Rfc5322 MultipartSpec CutSpec MultipartProofs MultipartRound CutFacts Rfc2046Spec Rfc2046Facts.

(* without padding, and with a line end after the close delimiter, the parts are the parts *)
Theorem C67_understood : forall E b l epi text r x, ~ In 13%N b -> rfc2046_body b l [] (Some epi) text -> Forall (fun y => fst y = []) l ->
  e_mime_type r = CMultipart -> map_get (e_parameters r) (bs "boundary") = Some b -> e_value r = text ->
  entity E r = Ok x <-> exists es, Forall2 (fun p e => raw_entity E p = Ok e) (map snd l) es /\ x = EMultipart (e_subtype r) es.
Proof. exact body_understood. Qed.
Print Assumptions C67_understood.
(* a delimiter with padding is text, and so is the header of the part after it *)
Theorem C67_padding : forall E b l epi text r x, ~ In 13%N b -> rfc2046_body b l [] (Some epi) text ->
  e_mime_type r = CMultipart -> map_get (e_parameters r) (bs "boundary") = Some b -> e_value r = text ->
  entity E r = Ok x <-> exists es, Forall2 (fun p e => raw_entity E p = Ok e) (snd (merged b l)) es /\ x = EMultipart (e_subtype r) es.
Proof. exact body_outcome. Qed.
Print Assumptions C67_padding.
(* if every delimiter has some, all parts are lost without an error *)
Theorem C67_all_padded : forall E b l epi text r, ~ In 13%N b -> rfc2046_body b l [] (Some epi) text -> Forall (fun y => fst y <> []) l ->
  e_mime_type r = CMultipart -> map_get (e_parameters r) (bs "boundary") = Some b -> e_value r = text -> entity E r = Ok (EMultipart (e_subtype r) []).
Proof. exact body_lost. Qed.
Print Assumptions C67_all_padded.
(* the close delimiter may neither have padding nor end the body *)
Theorem C67_end : forall E b l w e text r, ~ In 13%N b -> rfc2046_body b l w e text -> w <> [] \/ e = None ->
  e_mime_type r = CMultipart -> map_get (e_parameters r) (bs "boundary") = Some b -> e_value r = text -> entity E r = Err (Unknown "closing boundary not found").
Proof. exact body_refused. Qed.
Print Assumptions C67_end.
(* that every body of RFC 2046 is read is false, even for a part of a body that is read *)
Theorem C67_nested_refuted : exists b b' l l' p text, rfc2046_body b l [] (Some []) text /\ rfc2046_body b' l' [] None p /\ l <> [] /\ l' <> [] /\
  forall E, In E [env_default; env_mime; env_all_debug] -> forall r, e_mime_type r = CMultipart -> map_get (e_parameters r) (bs "boundary") = Some b -> e_value r = text ->
  exists r', entity E r = Ok (EMultipart (e_subtype r) [r']) /\ e_mime_type r' = CMultipart /\ map_get (e_parameters r') (bs "boundary") = Some b' /\ e_value r' = p /\ entity E r' = Err (Unknown "closing boundary not found").
Proof. exact nested_refused. Qed.
Print Assumptions C67_nested_refuted.

Definition padded_body : bytes :=
  bs "hi" ++ CRLF ++ bs "--b" ++ CRLF ++ CRLF ++ bs "x" ++ CRLF ++ bs "--b " ++ CRLF ++ CRLF ++ bs "y" ++ CRLF ++ bs "--b" ++ CRLF ++ CRLF ++ bs "z" ++ CRLF ++ bs "--b--" ++ CRLF ++ bs "bye".
Example C67_example :
  rfc2046_body (bs "b") [([], CRLF ++ bs "x"); (bs " ", CRLF ++ bs "y"); ([], CRLF ++ bs "z")] [] (Some (bs "bye")) padded_body /\
  snd (merged (bs "b") [([], CRLF ++ bs "x"); (bs " ", CRLF ++ bs "y"); ([], CRLF ++ bs "z")]) = [CRLF ++ bs "x" ++ CRLF ++ bs "--b " ++ CRLF ++ CRLF ++ bs "y"; CRLF ++ bs "z"] /\
  rfc2046_body (bs "i") [([], CRLF ++ bs "x")] [] None inner_body /\
  rfc2046_body (bs "o") [([], outer_part)] [] (Some []) outer_body.
Proof.
  split; [|split; [vm_compute; reflexivity|]; split; [exact inner_rfc|exact outer_rfc]].
  apply (body_preamble (bs "b") (bs "hi") [([], CRLF ++ bs "x"); (bs " ", CRLF ++ bs "y"); ([], CRLF ++ bs "z")] [] (Some (bs "bye")) (line_delimiter (bs "b") ++ bs "--" ++ [] ++ CRLF ++ bs "bye")).
  - apply not_occurs; vm_compute; reflexivity.
  - constructor; [|constructor; [|constructor; [|constructor]]]; (split; [cbn [fst]|apply not_occurs; vm_compute; reflexivity]).
    + constructor.
    + constructor; [|constructor]. now left.
    + constructor.
  - discriminate.
  - apply body_end_epilogue; [constructor|apply not_occurs; vm_compute; reflexivity].
Qed.

(* Property C48: MIME trees round trip. *)
From Coq Require Import Lia.
From Verif Require Import Base Utf8 Time Address MimeFields Fields Entity Email Envs EnvOk Rfc5322 CodecSpec RfcFields EmailSpec Writers CompleteFields MultipartSpec EntitySpec ParamSpec TreeSpec TreeFacts.
Local Open Scope N_scope.

(* ---- C48 ---- *)
(* a part is read with all its headers; [same_entity] allows another order of the parameters *)
Theorem C48_part_read : forall E c hs c' b v, env_ok E -> many_of (clear_part_header E) c hs -> content_after c' b ->
  transfer_decoded (encoding_of (last_some of_encoding hs)) b v ->
  exists r r', raw_entity E (c ++ c') = Ok r' /\ part_of hs b r /\ same_entity r r' /\ e_value r = v.
Proof. exact part_forward. Qed.
Print Assumptions C48_part_read.
(* trees of any depth *)
Theorem C48_tree_read : forall E, env_ok E ->
  (forall ty enc b t, content E ty enc b t -> exists v, transfer_decoded enc b v /\
    forall r, (e_mime_type r, e_subtype r) = fst ty -> same_map (snd ty) (e_parameters r) -> e_value r = v -> shows E r t) /\
  (forall cs ts, all_parts E cs ts -> exists rs, Forall2 (fun c r => raw_entity E c = Ok r) cs rs /\ shows_all E rs ts).
Proof. exact trees_read. Qed.
Print Assumptions C48_tree_read.
Theorem C48_mail_read : forall E data fs b e t, env_ok E -> f_mime E = true -> clear_message E data fs b ->
  content E (type_of (only is_content_type fs)) (encoding_of (only is_cte fs)) (content_of b) t -> parse E data = Ok e ->
  exists r, mime_entity e = Some r /\ shows E r t.
Proof. exact mail_tree. Qed.
Print Assumptions C48_mail_read.
(* an entity shows one tree only *)
Theorem C48_one_tree : forall E r t t', shows E r t -> shows E r t' -> t = t'.
Proof. exact (fun E r t t' H => proj1 (shows_unique E) r t H t'). Qed.
Print Assumptions C48_one_tree.
(* every tree can be mailed *)
Theorem C48_every_tree_mailed : forall E t m d, env_ok E -> f_mime E = true -> writable t -> writable_mailbox m -> date_in_range d ->
  exists data e r, parse E data = Ok e /\ (f_from E = true -> from e = [m]) /\ (f_date E = true -> date_of e = Some d) /\
    mime_entity e = Some r /\ shows E r t.
Proof. exact tree_mailed. Qed.
Print Assumptions C48_every_tree_mailed.

(* a text with an image and an alternative inside *)
Definition tree_example : tree :=
  Parts (bs "mixed") [Text (bs "plain") (bs "caf" ++ [195; 169]); Data CImage (bs "png") [137; 80; 78; 71];
    Parts (bs "alternative") [Text (bs "plain") (bs "hi"); Text (bs "html") (bs "<b>hi</b>")]].
Definition tree_mail : bytes :=
  bs "From: a@b.c" ++ CRLF ++ bs "Date: 1 Jan 2020 10:00 +0000" ++ CRLF ++ bs "Content-Type: multipart/mixed; boundary=""one""" ++ CRLF ++ CRLF ++
  bs "not shown" ++ CRLF ++ bs "--one" ++ CRLF ++
  bs "Content-Transfer-Encoding: quoted-printable" ++ CRLF ++ bs "Content-type: TEXT/Plain; charset=""iso-8859-1""" ++ CRLF ++ bs "content-TYPE: TEXT/Plain; charset=""UTF-8""" ++ CRLF ++ CRLF ++ bs "caf=C3=A9" ++ CRLF ++ bs "--one" ++ CRLF ++
  bs "Content-Type: image/png" ++ CRLF ++ bs "X-Other: y" ++ CRLF ++ bs "Content-Disposition: attachment; filename=""a.png""" ++ CRLF ++ bs "Content-Transfer-Encoding: Base64" ++ CRLF ++ CRLF ++ bs "iVBO" ++ CRLF ++ bs "Rw==" ++ CRLF ++ bs "--one" ++ CRLF ++
  bs "Content-Type: multipart/alternative; boundary=two" ++ CRLF ++ CRLF ++
    bs "--two" ++ CRLF ++ CRLF ++ bs "hi" ++ CRLF ++ bs "--two" ++ CRLF ++ bs "Content-Type: text/html; charset=us-ascii" ++ CRLF ++ CRLF ++ bs "<b>hi</b>" ++ CRLF ++ bs "--two--" ++ CRLF ++
  CRLF ++ bs "--one--" ++ CRLF ++ bs "not shown either".
Example C48_example : writable tree_example /\ exists e r, parse env_mime tree_mail = Ok e /\ mime_entity e = Some r /\ shows env_mime r tree_example.
Proof.
  split.
  - assert (L : Forall lower_token [bs "mixed"; bs "plain"; bs "png"; bs "alternative"; bs "html"]).
    { repeat (constructor; [split; [split; [discriminate|repeat (constructor; [unfold mime_token_char; cbn; split; [lia|cbn; intuition discriminate]|]); constructor]|reflexivity]|]). constructor. }
    rewrite Forall_forall in L. unfold tree_example. repeat (constructor; try (apply L; cbn; tauto); try reflexivity).
    apply (writable_known (bs "image")); [cbn; tauto|discriminate|discriminate].
  - destruct (parse env_mime tree_mail) as [e|er|k] eqn:P; [|vm_compute in P; discriminate|vm_compute in P; discriminate].
    destruct (mime_entity e) as [r|] eqn:M; [|vm_compute in P; inversion P; subst e; discriminate]. exists e, r. split; [reflexivity|]. split; [exact M|].
    vm_compute in P. inversion P; subst e. injection M as <-. unfold tree_example.
    eapply shows_parts; [vm_compute; reflexivity|]. repeat apply shows_cons; try apply shows_nil.
    + apply shows_text. vm_compute. reflexivity.
    + apply shows_data; [vm_compute; reflexivity|discriminate].
    + eapply shows_parts; [vm_compute; reflexivity|]. repeat apply shows_cons; try apply shows_nil; apply shows_text; vm_compute; reflexivity.
Qed.

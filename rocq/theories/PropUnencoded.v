(* Property C68: the size of a tree of parts without encoded multiparts. *)
From Verif Require Import Base Time Address MimeFields Fields Message Entity Email Envs EnvOk CodecSpec RfcFields EmailSpec EntitySpec MultipartSpec CutSpec CutFacts MultipartRound MultipartProofs Rfc5322 Rfc2046Spec Rfc2046Facts GrowSpec GrowFacts RegularFacts UnencodedSpec UnencodedFacts.
Local Open Scope nat_scope.

(* ---- C68 ---- *)
(* a mail: at all levels together there is at most one part for four bytes of the mail, the values of all
   leaves have at most three times its bytes, and those of all parts a quadratic number *)
Theorem C68_mail : forall E, env_ok E -> forall D e r, f_mime E = true -> parse E D = Ok e -> mime_entity e = Some r -> kept D r -> unencoded E r -> forall n,
  4 * length (below E n r) <= length D /\ value_bytes (filter is_leaf (r :: below E n r)) <= 3 * length D /\ 8 * value_bytes (below E n r) <= 3 * (length D * length D).
Proof. exact unencoded_mail. Qed.
Print Assumptions C68_mail.
(* the same below any entity *)
Theorem C68_count : forall E, forall n r, unencoded E r -> 4 * length (below E n r) <= length (e_value r).
Proof. exact below_count. Qed.
Print Assumptions C68_count.
Theorem C68_leaves : forall E, env_ok E -> forall n r, unencoded E r -> value_bytes (filter is_leaf (below E n r)) <= 3 * length (e_value r).
Proof. exact below_leaves. Qed.
Print Assumptions C68_leaves.
Theorem C68_bytes : forall E, env_ok E -> forall n r, unencoded E r -> 8 * value_bytes (below E n r) <= 3 * (length (e_value r) * length (e_value r)).
Proof. exact below_bytes. Qed.
Print Assumptions C68_bytes.
(* these are the parts of all levels of C65 *)
Theorem C68_levels : forall E n r x, In x (below E n r) <-> exists k, k < n /\ In x (level E (S k) r).
Proof. exact below_levels. Qed.
Print Assumptions C68_levels.
(* no header, 7bit, 8bit and binary keep the text *)
Theorem C68_identity : forall E p hs t e, part_text E p hs t -> part_of hs t e -> ~ In (encoding_of (last_some of_encoding hs)) [QuotedPrintableEnc; Base64Enc] -> exists h, p = h ++ e_value e.
Proof. exact identity_kept. Qed.
Print Assumptions C68_identity.

(* a multipart in a multipart, the inner leaf being quoted-printable *)
Definition leaf_part : bytes := bs "Content-Transfer-Encoding: quoted-printable" ++ CRLF ++ CRLF ++ [7; 8]%N.
Definition pair_body : bytes := bs "--i" ++ CRLF ++ leaf_part ++ CRLF ++ bs "--i" ++ CRLF ++ CRLF ++ bs "b" ++ CRLF ++ bs "--i--" ++ CRLF.
Definition pair_part : bytes := bs "Content-Type: multipart/mixed; boundary=i" ++ CRLF ++ CRLF ++ pair_body.
Definition tree_body : bytes := bs "--o" ++ CRLF ++ pair_part ++ CRLF ++ bs "--o--" ++ CRLF.
Definition tree_mail : bytes := bs "From: a@b" ++ CRLF ++ date_line ++ bs "Content-Type: multipart/mixed; boundary=o" ++ CRLF ++ CRLF ++ tree_body.
Example C68_example : env_ok env_mime /\ f_mime env_mime = true /\ exists e r, parse env_mime tree_mail = Ok e /\ mime_entity e = Some r /\ kept tree_mail r /\ unencoded env_mime r /\
  length tree_mail = 218 /\ map (fun x => (is_leaf x, length (e_value x))) (below env_mime 9 r) = [(false, 73); (true, 6); (true, 1)].
Proof.
  split; [exact env_mime_ok|]. split; [reflexivity|].
  let z := eval vm_compute in (parse env_mime tree_mail) in match z with Ok ?z => let r := eval vm_compute in (mime_entity z) in match r with Some ?r => exists z, r end end.
  split; [vm_compute; reflexivity|]. split; [reflexivity|]. split; [|split; [|split; vm_compute; reflexivity]].
  - intros _. exists (firstn (length tree_mail - length tree_body) tree_mail). vm_compute. reflexivity.
  - apply (unencoded_node env_mime _ (bs "o") [pair_part]); [vm_compute; reflexivity| |].
    + apply (body_cut (bs "o") ltac:(vm_compute; intuition discriminate) [([], pair_part)] []).
      apply (body_start (bs "o") [] pair_part [] [] (Some []) (line_delimiter (bs "o") ++ bs "--" ++ [] ++ CRLF ++ [])).
      * constructor; [|constructor]. split; [constructor|apply not_occurs; vm_compute; reflexivity].
      * apply body_end_epilogue; [constructor|apply not_occurs; vm_compute; reflexivity].
    + intros p e [<-|[]] He. vm_compute in He. injection He as <-. split; [intros _; exists (firstn (length pair_part - length pair_body) pair_part); vm_compute; reflexivity|].
      apply (unencoded_node env_mime _ (bs "i") [leaf_part; CRLF ++ bs "b"]); [vm_compute; reflexivity| |].
      * apply (body_cut (bs "i") ltac:(vm_compute; intuition discriminate) [([], leaf_part); ([], CRLF ++ bs "b")] []).
        apply (body_start (bs "i") [] leaf_part [([], CRLF ++ bs "b")] [] (Some []) (line_delimiter (bs "i") ++ bs "--" ++ [] ++ CRLF ++ [])).
        -- constructor; [|constructor; [|constructor]]; (split; [constructor|apply not_occurs; vm_compute; reflexivity]).
        -- apply body_end_epilogue; [constructor|apply not_occurs; vm_compute; reflexivity].
      * intros p e [<-|[<-|[]]] He; vm_compute in He; injection He as <-; (split; [discriminate|apply unencoded_leaf; reflexivity]).
Qed.

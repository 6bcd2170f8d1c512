(* Property C63: the strings of the parts of a mail are slices of the mail, or copies. *)
From Verif Require Import Base Utf8 CharSets Combinators MimeFields Fields Message Entity Email Envs EnvOk StringCow StringSpec ZeroCopy ZeroSpec ZeroExact ZeroParts ZeroPartsSpec ZeroTree.
Local Open Scope N_scope.

(* the headers and the value of an entity, given as a slice or as a copy, are read the same *)
Theorem C63_part_same : forall m lit E, env_ok E -> f_mime E = true -> loaded m lit -> forall h c D, held m h c D ->
  match z_raw_entity m lit h E c, raw_entity E D with
  | Ok z, Ok e => like_entity (is_text m) (is_text m) (is_text m) (is_bytes m) z e
  | Err x, Err y => x = y
  | Crash x, Crash y => x = y
  | _, _ => False
  end.
Proof. exact raw_same. Qed.
Print Assumptions C63_part_same.
(* and an entity is parsed to the same *)
Theorem C63_same : forall m lit E, env_ok E -> f_mime E = true -> loaded m lit -> forall h r e, like_entity (is_text m) (is_text m) (is_text m) (held m h) r e ->
  match z_entity m lit h E r, entity E e with
  | Ok z, Ok y => like_result (is_text m) (is_text m) (is_text m) (is_bytes m) z y
  | Err x, Err y => x = y
  | Crash x, Crash y => x = y
  | _, _ => False
  end.
Proof. exact entity_same. Qed.
Print Assumptions C63_same.
(* the slices of a part lie inside the value of the entity it is a part of; ids and the names of additional headers are never copied *)
Theorem C63_within : forall m lit E, env_ok E -> f_mime E = true -> loaded m lit -> forall h r e s parts,
  like_entity (is_text m) (is_text m) (is_text m) (held m h) r e -> z_entity m lit h E r = Ok (ZEMultipart s parts) ->
  forall x k c, In x parts -> In (k, c) (of_entity x) ->
  (slice_in (address_of h (zr_value r)) (address_of h (zr_value r) + N.of_nat (length (e_value e))) c \/ k = Loose /\ is_literal lit c) /\ (k = Fixed -> is_borrowed c).
Proof. exact parts_within. Qed.
Print Assumptions C63_within.
(* so the slices of the parts of the parts of a mail lie inside the mail, as long as nothing on the way was decoded *)
Theorem C63_mail : forall m lit E, env_ok E -> f_mime E = true -> loaded m lit -> forall p D z r x,
  at_address m p D -> z_parse m p lit E D = Ok z -> ze_entity z = Some r -> nested m lit E r x ->
  forall k c, In (k, c) (of_entity x) -> (slice_in p (p + N.of_nat (length D)) c \/ k = Loose /\ is_literal lit c) /\ (k = Fixed -> is_borrowed c).
Proof. exact mail_within. Qed.
Print Assumptions C63_mail.
(* the headers and the value of an owned entity are all copied *)
Theorem C63_owned : forall m lit E, env_ok E -> f_mime E = true -> loaded m lit -> forall h D r,
  at_address m h D -> z_raw_entity m lit h E (Owned D) = Ok r -> forall k c, In (k, c) (of_entity r) -> ~ is_borrowed c.
Proof. exact owned_copies. Qed.
Print Assumptions C63_owned.
(* without a backslash, a folded line or an encoded word in the headers of a part no text of it is copied *)
Theorem C63_quiet : forall m lit E, env_ok E -> f_mime E = true -> loaded m lit -> forall h p D r hd,
  at_address m p D -> z_raw_entity m lit h E (Borrowed p (length D)) = Ok r -> headers_of D hd -> quiet_for E hd ->
  forall c, In (Text, c) (of_entity r) -> is_borrowed c.
Proof. exact part_quiet. Qed.
Print Assumptions C63_quiet.
(* the value of a part is a copy exactly when its last Content-Transfer-Encoding header asked for base64 or quoted-printable *)
Theorem C63_value : forall m lit E, env_ok E -> f_mime E = true -> forall h p D r j hs,
  at_address m p D -> z_raw_entity m lit h E (Borrowed p (length D)) = Ok r -> many (entity_header_parser E) D = Ok (j, hs) ->
  (is_borrowed (zr_value r) <-> ~ exists e, last_encoding hs e /\ decoded e).
Proof. exact part_value. Qed.
Print Assumptions C63_value.
(* the text of an entity is a slice exactly when its charset is utf-8 or us-ascii, and then it is the whole value *)
Theorem C63_text : forall m lit h E r s v, z_entity m lit h E r = Ok (ZEText s v) -> s = zr_subtype r /\ exists k c cs, In (bs "charset", (k, c)) (zr_parameters r) /\ contents m c = Ok cs /\
  (is_borrowed v <-> lowercase cs = bs "utf-8" \/ lowercase cs = bs "us-ascii") /\ (is_borrowed v -> v = Borrowed (address_of h (zr_value r)) (cow_len (zr_value r))).
Proof. exact text_value. Qed.
Print Assumptions C63_text.

(* a mail with two parts, the second of which has a part *)
Definition inner : bytes := bs "--j" ++ CRLF ++ bs "X: y" ++ CRLF ++ CRLF ++ bs "in" ++ CRLF ++ bs "--j--" ++ CRLF.
Definition first_part : bytes := bs "Content-Type: text/html; charset=UTF-8" ++ CRLF ++ bs "Content-Description: a" ++ CRLF ++ bs " b" ++ CRLF ++ CRLF ++ bs "hi".
Definition tree_mail : bytes := bs "Date: 5 May 2003 18:58:34 +0000" ++ CRLF ++ bs "From: a@x.y" ++ CRLF ++ bs "Content-Type: multipart/mixed; boundary=b" ++ CRLF ++ CRLF ++
  bs "--b" ++ CRLF ++ first_part ++ CRLF ++ bs "--b" ++ CRLF ++ bs "Content-Type: multipart/mixed; boundary=j" ++ CRLF ++ CRLF ++ inner ++ CRLF ++ bs "--b--" ++ CRLF.
Definition tree_memory : mem := memory_of tree_mail.
Example C63_example :
  env_ok env_mime /\ f_mime env_mime = true /\ loaded tree_memory our_literals /\ at_address tree_memory 1000 tree_mail
  /\ exists z r a b c, z_parse tree_memory 1000 our_literals env_mime tree_mail = Ok z /\ ze_entity z = Some r /\ zr_value r = Borrowed 1091 162
     /\ z_entity tree_memory our_literals 0 env_mime r = Ok (ZEMultipart (Borrowed 1070 5) [a; b])
     /\ of_entity a = [(Loose, Borrowed 1115 4); (Text, Owned (bs " a b")); (Loose, Borrowed 1121 7); (Loose, Borrowed 1129 5); (Raw, Borrowed 1166 2)]
     /\ z_entity tree_memory our_literals 0 env_mime a = Ok (ZEText (Borrowed 1115 4) (Borrowed 1166 2))
     /\ z_entity tree_memory our_literals 0 env_mime b = Ok (ZEMultipart (Borrowed 1199 5) [c])
     /\ of_entity c = [(Loose, Borrowed 10 5); (Loose, Borrowed 15 7); (Loose, Borrowed 22 8); (Raw, Borrowed 1233 2); (Fixed, Borrowed 1225 1); (Text, Borrowed 1227 2)]
     /\ nested tree_memory our_literals env_mime r c.
Proof.
  split; [exact env_mime_ok|]. split; [reflexivity|]. split; [apply memory_of_loaded|]. split; [apply memory_of_at|].
  let z := eval vm_compute in (z_parse tree_memory 1000 our_literals env_mime tree_mail) in match z with Ok ?z =>
  let r := eval vm_compute in (ze_entity z) in match r with Some ?r =>
  let e := eval vm_compute in (z_entity tree_memory our_literals 0 env_mime r) in match e with Ok (ZEMultipart _ [?a; ?b]) =>
  let f := eval vm_compute in (z_entity tree_memory our_literals 0 env_mime b) in match f with Ok (ZEMultipart _ [?c]) => exists z, r, a, b, c end end end end.
  assert (Q : forall (A B : Prop), A -> (A -> B) -> A /\ B) by (intros A B H1 H2; split; [exact H1|exact (H2 H1)]).
  split; [vm_compute; reflexivity|]. split; [reflexivity|]. split; [reflexivity|]. apply Q; [vm_compute; reflexivity|]. intros Y. split; [reflexivity|]. split; [vm_compute; reflexivity|]. apply Q; [vm_compute; reflexivity|]. intros W. split; [reflexivity|].
  eapply nested_part; [exact I|exact Y|right; now left|]. eapply nested_part; [exact I|exact W|now left|apply nested_self].
Qed.
(* the first part as an owned entity at address 1091: everything is copied; as a slice with a decoded value; and one with quiet headers *)
Definition coded_part : bytes := bs "Content-Transfer-Encoding: 7bit" ++ CRLF ++ bs "Content-Transfer-Encoding: base64" ++ CRLF ++ CRLF ++ bs "SGk=".
Definition quiet_head : bytes := bs "Content-Description: a b" ++ CRLF.
Example C63_owned_example :
  (exists r, z_raw_entity (memory_of first_part) our_literals 1000 env_mime (Owned first_part) = Ok r
     /\ of_entity r = [(Loose, Owned (bs "html")); (Text, Owned (bs " a b")); (Loose, Owned (bs "charset")); (Loose, Owned (bs "UTF-8")); (Raw, Owned (bs "hi"))])
  /\ (exists r j hs, z_raw_entity (memory_of coded_part) our_literals 0 env_mime (Borrowed 1000 (length coded_part)) = Ok r /\ zr_value r = Owned (bs "Hi")
     /\ many (entity_header_parser env_mime) coded_part = Ok (j, hs) /\ last_encoding hs Base64Enc)
  /\ (exists r, z_raw_entity (memory_of (quiet_head ++ CRLF)) our_literals 0 env_mime (Borrowed 1000 (length (quiet_head ++ CRLF))) = Ok r /\ In (Text, Borrowed 1020 4) (of_entity r)
     /\ headers_of (quiet_head ++ CRLF) quiet_head /\ quiet_for env_mime quiet_head).
Proof.
  split; [|split].
  - destruct (z_raw_entity (memory_of first_part) our_literals 1000 env_mime (Owned first_part)) as [r|x|x] eqn:Z; [|exfalso; revert Z; vm_compute; discriminate..]. exists r. split; [reflexivity|]. revert Z. vm_compute. intros [= <-]. reflexivity.
  - destruct (z_raw_entity (memory_of coded_part) our_literals 0 env_mime (Borrowed 1000 (length coded_part))) as [r|x|x] eqn:Z; [|exfalso; revert Z; vm_compute; discriminate..]. exists r, (CRLF ++ bs "SGk="), [HEncoding SevenBit; HEncoding Base64Enc].
    split; [reflexivity|]. split; [revert Z; vm_compute; intros [= <-]; reflexivity|]. split; [vm_compute; reflexivity|]. exists [HEncoding SevenBit], []. split; [reflexivity|]. intros e [].
  - destruct (z_raw_entity (memory_of (quiet_head ++ CRLF)) our_literals 0 env_mime (Borrowed 1000 (length (quiet_head ++ CRLF)))) as [r|x|x] eqn:Z; [|exfalso; revert Z; vm_compute; discriminate..]. exists r. split; [reflexivity|].
    split; [revert Z; vm_compute; intros [= <-]; cbn; auto 20|]. split; [|apply quiet_for_dec; vm_compute; reflexivity].
    constructor; [right; exists (bs "Content-Description: a b"); reflexivity| |right; exists []; now rewrite app_nil_r]. intros a b. apply (not_in (CRLF ++ CRLF)). vm_compute. reflexivity.
Qed.

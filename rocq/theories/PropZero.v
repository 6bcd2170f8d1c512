(* Property C62: the strings of an email are slices of the mail, or copies. *)
From Verif Require Import Base Utf8 CharSets Rfc5322 Combinators Whitespace QuotedString Common Address MimeFields Fields Message Entity Email Envs EnvOk StringCow StringSpec ZeroCopy ZeroSpec ZeroFacts ZeroStrings ZeroExact.
Local Open Scope N_scope.

(* the parser that returns slices of memory returns the same emails, errors and crashes *)
Theorem C62_same : forall m p lit E D, env_ok E -> at_address m p D -> loaded m lit ->
  match z_parse m p lit E D, parse E D with
  | Ok z, Ok e => like_email (is_text m) (is_text m) (is_text m) (is_text m) (is_bytes m) z e
  | Err x, Err y => x = y
  | Crash x, Crash y => x = y
  | _, _ => False
  end.
Proof. exact parse_same. Qed.
Print Assumptions C62_same.
(* each slice lies inside the mail, or is one of the literals of the default content type; ids, names of unknown headers and the body are never copied *)
Theorem C62_within : forall m p lit E D, env_ok E -> at_address m p D -> loaded m lit ->
  forall z, z_parse m p lit E D = Ok z -> forall k c, In (k, c) (strings_of z) -> (slice_in p (p + N.of_nat (length D)) c \/ k = Loose /\ is_literal lit c) /\ (k = Fixed -> is_borrowed c).
Proof. exact parse_slices. Qed.
Print Assumptions C62_within.
(* without a backslash, without a folded line and, with mime, without an encoded word in the headers no text is copied; and no domain if there is no bracket *)
Theorem C62_quiet : forall m p lit E D, env_ok E -> at_address m p D -> loaded m lit ->
  forall z h, z_parse m p lit E D = Ok z -> headers_of D h -> quiet_for E h ->
  forall k c, In (k, c) (strings_of z) -> k = Text \/ k = Domain /\ ~ In 91 h -> is_borrowed c.
Proof. exact parse_quiet. Qed.
Print Assumptions C62_quiet.
Theorem C62_quiet_domain_refuted : exists m p lit E D z h c, env_ok E /\ at_address m p D /\ loaded m lit /\ z_parse m p lit E D = Ok z /\ headers_of D h /\ quiet_for E h /\ In (Domain, c) (strings_of z) /\ ~ is_borrowed c.
Proof. exact bracket_copied. Qed.
Print Assumptions C62_quiet_domain_refuted.
(* the decoded value of a mail is a copy exactly when a Content-Transfer-Encoding header asked for base64 or quoted-printable, and there is a body *)
Theorem C62_value : forall m p lit E D, env_ok E -> at_address m p D -> loaded m lit -> forall z r j fs, z_parse m p lit E D = Ok z -> ze_entity z = Some r -> fields E D = Ok (j, fs) ->
  (is_borrowed (zr_value r) <-> j = [] \/ ~ exists e, In (FContentTransferEncoding e) fs /\ decoded e).
Proof. exact value_copied. Qed.
Print Assumptions C62_value.
(* a mime type, a subtype or a disposition is a copy exactly when it has a capital letter *)
Theorem C62_lower : forall M D a i j c, total M = length D -> at_address (memory M) (base M) D -> D = a ++ i -> z_lower_token M i = Ok (j, c) ->
  exists w, i = w ++ j /\ token i = Ok (j, w) /\ is_text (memory M) c (lowercase w) /\ (is_borrowed c <-> ~ exists x, In x w /\ 65 <= x <= 90).
Proof. exact lower_token_copied. Qed.
Print Assumptions C62_lower.
(* exactly when the text of a Subject, a Comments or an unknown header, w followed by the blanks b, is a slice *)
Theorem C62_text : forall M D a i j c, total M = length D -> at_address (memory M) (base M) D -> D = a ++ i -> z_unstructured M i = Ok (j, c) ->
  exists w b v, i = w ++ b ++ j /\ chars rfc_WSP b /\ ends_in rfc_VCHAR w /\ unstructured i = Ok (j, v) /\ is_text (memory M) c v /\ (is_borrowed c <-> kept_together false w v).
Proof. exact unstructured_copied. Qed.
Print Assumptions C62_text.
(* exactly when a quoted string, with w between the quotes, is a slice *)
Theorem C62_quoted : forall M D a i j c, total M = length D -> at_address (memory M) (base M) D -> D = a ++ i -> z_quoted_string M i = Ok (j, c) ->
  exists x w y v, i = x ++ [DQUOTE] ++ w ++ [DQUOTE] ++ y ++ j /\ rfc_oCFWS x /\ rfc_oCFWS y /\ quoted_string i = Ok (j, v) /\ is_text (memory M) c v /\ (is_borrowed c <-> kept_together true w v).
Proof. exact quoted_string_copied. Qed.
Print Assumptions C62_quoted.

Definition zero_mail : bytes := bs "Date: 5 May 2003 18:58:34 +0000" ++ CRLF ++ bs "From: ""Jo\e"" <a.b@x.y>" ++ CRLF ++ bs "Subject: folded" ++ CRLF ++ bs " subject" ++ CRLF ++
  bs "Comments: plain text " ++ CRLF ++ bs "X: y" ++ CRLF ++ CRLF ++ bs "body".
Definition zero_strings : list (kind * cow) :=
  [ (Fixed, Borrowed 1115 4);
    (Text, Owned (bs "Joe")); (Text, Borrowed 1047 3); (Domain, Borrowed 1051 3);
    (Text, Owned (bs "Joe")); (Text, Borrowed 1047 3); (Domain, Borrowed 1051 3);
    (Text, Owned (bs " folded subject")); (Text, Borrowed 1093 11); (Fixed, Borrowed 1107 1); (Text, Borrowed 1109 2) ].
Example C62_example :
  env_ok env_default /\ at_address (memory_of zero_mail) 1000 zero_mail /\ loaded (memory_of zero_mail) our_literals
  /\ (exists z, z_parse (memory_of zero_mail) 1000 our_literals env_default zero_mail = Ok z /\ strings_of z = zero_strings)
  /\ (let M := {| memory := memory_of (bs """\ab"""); base := 1000; total := 5; literal := 7 |} in
      z_quoted_string M (bs """\ab""") = Ok ([], Borrowed 1002 2) /\ kept_together true (bs "\ab") (bs "ab")).
Proof.
  split; [exact env_default_ok|]. split; [apply memory_of_at|]. split; [apply memory_of_loaded|]. split.
  - destruct (z_parse (memory_of zero_mail) 1000 our_literals env_default zero_mail) as [z|x|x] eqn:Z; [|exfalso; revert Z; vm_compute; discriminate..]. exists z. split; [reflexivity|]. revert Z. vm_compute. intros [= <-]. reflexivity.
  - split; [vm_compute; reflexivity|]. right. right. split; reflexivity.
Qed.
(* with mime: an encoded word, parameters, capital letters, a decoded value *)
Definition mime_mail : bytes := bs "Date: 5 May 2003 18:58:34 +0000" ++ CRLF ++ bs "From: a@x.y" ++ CRLF ++ bs "Subject: =?us-ascii?Q?Hi?=" ++ CRLF ++ bs "Content-Type: Font/Woff;Name=f" ++ CRLF ++ bs "Content-ID: <i@d>" ++ CRLF ++
  bs "Content-Description: a font" ++ CRLF ++ bs "Content-Disposition: attachment;filename=a.b;k=v" ++ CRLF ++ bs "Content-Transfer-Encoding: base64" ++ CRLF ++ CRLF ++ bs "SGk=".
Definition mime_strings : list (kind * cow) :=
  [ (Text, Borrowed 1039 1); (Domain, Borrowed 1041 3); (Text, Borrowed 1039 1); (Domain, Borrowed 1041 3); (Text, Owned (bs " Hi"));
    (Loose, Owned (bs "font")); (Loose, Owned (bs "woff")); (Text, Borrowed 1145 7); (Fixed, Borrowed 1119 1); (Fixed, Borrowed 1121 1);
    (Loose, Owned (bs "name")); (Loose, Borrowed 1103 1); (Text, Borrowed 1195 3); (Loose, Borrowed 1199 1); (Loose, Borrowed 1201 1); (Raw, Owned (bs "Hi")) ].
Example C62_mime_example :
  env_ok env_mime /\ (exists z, z_parse (memory_of mime_mail) 1000 our_literals env_mime mime_mail = Ok z /\ strings_of z = mime_strings).
Proof.
  split; [exact env_mime_ok|].
  destruct (z_parse (memory_of mime_mail) 1000 our_literals env_mime mime_mail) as [z|x|x] eqn:Z; [|exfalso; revert Z; vm_compute; discriminate..]. exists z. split; [reflexivity|]. revert Z. vm_compute. intros [= <-]. reflexivity.
Qed.
Definition quiet_headers : bytes := bs "Date: 5 May 2003 18:58:34 +0000" ++ CRLF ++ bs "From: ""Joe D."" <a.b@x.y>" ++ CRLF.
Definition quiet_mail : bytes := quiet_headers ++ CRLF ++ bs "=?\" ++ CRLF ++ bs " [".
Example C62_quiet_example : exists z, z_parse (memory_of quiet_mail) 1000 our_literals env_mime quiet_mail = Ok z /\ headers_of quiet_mail quiet_headers
  /\ quiet_for env_mime quiet_headers /\ ~ In 91 quiet_headers /\ In (Text, Borrowed 1040 6) (strings_of z) /\ In (Loose, Borrowed 22 8) (strings_of z) /\ In (Raw, Borrowed 1061 7) (strings_of z).
Proof.
  destruct (z_parse (memory_of quiet_mail) 1000 our_literals env_mime quiet_mail) as [z|x|x] eqn:Z; [|exfalso; revert Z; vm_compute; discriminate..].
  exists z. split; [reflexivity|]. split; [constructor; [right; exists (bs "Date: 5 May 2003 18:58:34 +0000" ++ CRLF ++ bs "From: ""Joe D."" <a.b@x.y>"); reflexivity| |right; eexists; reflexivity]; intros a b; apply (not_in (CRLF ++ CRLF)); vm_compute; reflexivity|].
  split; [apply quiet_for_dec; vm_compute; reflexivity|]. split; [vm_compute; intuition discriminate|].
  revert Z. vm_compute. intros [= <-]. cbn. auto 20.
Qed.

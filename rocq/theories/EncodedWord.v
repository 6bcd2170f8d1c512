(* parsing/mime/encoded_headers.rs *)
From Verif Require Import Base Utf8 CharSets Combinators Base64 QuotedPrintable Charset.
Local Open Scope N_scope.

(* encoded_headers.rs:8-26 *)
Definition especials (c : byte) : bool := one_of "()<>@,;:\/[]?.=" c || (c =? DQUOTE).

(* encoded_headers.rs:28-34 *)
Definition ew_charset : parser bytes := fun i =>
  let* (i, c) := take_while1 (fun c => (32 <? c) && (c <? 127) && negb (especials c) && negb (c =? 42)) i in
  Ok (i, lowercase c).

(* encoded_headers.rs:36-40 *)
Definition ew_encoding : parser bytes := fun i =>
  let* (i, c) := take_while1 (fun c => (32 <? c) && (c <? 127) && negb (especials c)) i in
  Ok (i, lowercase c).

(* encoded_headers.rs:42-44 *)
Definition encoded_text : parser bytes :=
  take_while1 (fun c => (32 <? c) && (c <=? 126) && negb (c =? 63)).

(* encoded_headers.rs:46-115 *)
Definition encoded_word (E : env) : parser bytes := fun i =>
  let* (i, _) := tag (bs "=?") "TAG ERROR: An encoded word must start with `=?`." i in
  let* (i, charset) := ew_charset i in
  let* (i, _) := optional (pair_p
      (tag (bs "*") "TAG ERROR: In an encoded word with encoding, a charset must be followed by a `*`.")
      ew_encoding) i in
  let* (i, _) := tag (bs "?") "TAG ERROR: In an encoded word, a language must be followed by a `?`." i in
  let* (i, encoding) := ew_encoding i in
  let* (i, _) := tag (bs "?") "TAG ERROR: In an encoded word, a encoding must be followed by a `?`." i in
  let* (i, data) := encoded_text i in
  let* (i, _) := tag (bs "?=") "TAG ERROR: An encoded word must end with `?=`." i in
  let* value :=
    if bytes_eqb encoding (bs "b") then decode_base64 E data
    else if bytes_eqb encoding (bs "q") then decode_header_qp E data
    else Err (Unknown "Unknown encoding") in
  let* text :=
    match find_charset charset with
    | Some k => decode_charset E k value
    | None => Err (Unknown "Unknown charset")
    end in
  Ok (i, text).

(* parsing/whitespaces.rs and quoted_string.rs:4-28 (quoted_pair) *)
From Verif Require Import Base Utf8 CharSets Combinators.

(* quoted_string.rs:4-28 *)
Definition quoted_pair : parser bytes := fun i =>
  let* (i, _) := tag [BACKSLASH] "TAG ERROR: A quoted pair must start with a `\`." i in
  match i with
  | c :: _ =>
    if is_vchar c || is_wsp c then
      let* r := unchecked_from i 1 in
      let* h := unchecked_to i 1 in
      let* s := str_unchecked h in
      Ok (r, s)
    else Err (Unknown "The quoted-pair character is no a vchar or a wsp.")
  | [] => Err (Unknown "The quoted-pair has no second character.")
  end.

(* whitespaces.rs:4-28 *)
Definition fws : parser bytes := fun i =>
  let* (i, before) :=
    optional (pair_p (take_while is_wsp)
                     (tag CRLF "TAG ERROR: A folding whitespace must end with a `\r\n` sequence.")) i in
  let* (i, after) := take_while1 is_wsp i in
  match before with
  | Some (b, _) => Ok (i, b ++ after)
  | None => Ok (i, after)
  end.

(* whitespaces.rs:30-57: comment and ccontent call each other; [depth] bounds the
   nesting of calls. The output of a comment is the empty string. *)
Fixpoint comment_d (depth : nat) (i : bytes) : res (bytes * bytes) :=
  match depth with
  | 0 => Crash OutOfFuel
  | S d =>
    (* whitespaces.rs:31-43 *)
    let ccontent := match_parsers [take_while1 is_ctext; quoted_pair; comment_d d] in
    let* (i, _) := tag (bs "(") "TAG ERROR: A comment must start with a `(`." i in
    let* (i, _) := ignore_many (pair_p (optional fws) ccontent) i in
    let* (i, _) := optional fws i in
    let* (i, _) := tag (bs ")") "TAG ERROR: A comment must end with a `)`." i in
    Ok (i, [])
  end.

(* whitespaces.rs:45-57; every nested call works on a strictly shorter input *)
Definition comment : parser bytes := fun i => comment_d (S (length i)) i.

(* whitespaces.rs:30-43 *)
Definition ccontent : parser bytes := match_parsers [take_while1 is_ctext; quoted_pair; comment].

(* whitespaces.rs:64-71, 75-84: `optional(fws)` then `comment`; a failure of the
   comment leaves the input where it was *)
Definition fws_comment : parser bytes := fun i =>
  let* (i, w) := optional fws i in
  let* (i, _) := comment i in
  Ok (i, match w with Some s => s | None => [] end).

(* whitespaces.rs:61-93. The first iteration (64-72, which fails with "Expected at
   least one comment") and the loop (74-85) perform the same step. *)
Definition real_cfws : parser bytes := fun i =>
  let* (i, first) := map_err (fws_comment i) (Unknown "Expected at least one comment") in
  let* (i, others) := many fws_comment i in
  let* (i, last) := optional fws i in
  Ok (i, first ++ concat others ++ match last with Some s => s | None => [] end).

(* whitespaces.rs:59-96 *)
Definition cfws : parser bytes := match_parsers [real_cfws; fws].

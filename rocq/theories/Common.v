(* parsing/common.rs *)
From Verif Require Import Base Utf8 CharSets Combinators Whitespace QuotedString EncodedWord.

(* common.rs:17-27 *)
Definition atom : parser bytes := fun i =>
  let* i := skip_cfws i in
  let* (i, a) := map_err (take_while1 is_atext i) (Unknown "Atom required") in
  let* i := skip_cfws i in
  Ok (i, a).

(* common.rs:34-44: one turn of the loop *)
Definition dot_atom_step (E : env) : parser bytes := fun i =>
  if starts_with i (bs ".") then
    let* rest := index_from i 1 in
    let* (r, a) := if f_compatibility_fixes E then take_while is_atext rest else take_while1 is_atext rest in
    Ok (r, bs "." ++ a)
  else Err (Unknown "break").

(* common.rs:29-52 *)
Definition dot_atom_text (E : env) : parser bytes := fun i =>
  let* (i, first) := take_while1 is_atext i in
  let* (i, others) := collect_many (dot_atom_step E) i in
  Ok (i, first ++ others).

(* common.rs:54-63 *)
Definition dot_atom (E : env) : parser bytes := fun i =>
  let* i := skip_cfws i in
  let* (i, a) := dot_atom_text E i in
  let* i := skip_cfws i in
  Ok (i, a).

(* common.rs:65-76 *)
Definition word : parser bytes := match_parsers [atom; quoted_string].

(* common.rs:79-91 (with mime), common.rs:65-76 (without) *)
Definition phrase_word (E : env) : parser bytes :=
  if f_mime E then
    match_parsers [ (fun i => let* (i, _) := optional fws i in encoded_word E i); word ]
  else word.

(* common.rs:78-103 *)
Definition phrase (E : env) : parser (list bytes) := many1 (phrase_word E).

(* common.rs:106-115 *)
Definition unstructured_step : parser bytes := fun i =>
  collect_pair (fun i => attempt (fws i) (fun ra => Ok ra) (Ok (i, []))) (take_while1 is_vchar) i.

(* common.rs:105-122 *)
Definition unstructured : parser bytes := fun i =>
  let* (i, output) := collect_many unstructured_step i in
  let* (i, _) := ignore_many (take_while1 is_wsp) i in
  Ok (i, output).

(* common.rs:127-144: the closure, as a function of previous_was_encoded; a failing
   turn ends the loop, so its effect on the flag is not observable *)
Definition mime_unstructured_step (E : env) (previous_was_encoded : bool) : parser (bytes * bool) := fun i =>
  let* (i, wsp) := attempt (fws i) (fun ra => Ok ra) (Ok (i, [])) in
  attempt (encoded_word E i)
    (fun '(i, text) => if previous_was_encoded then Ok (i, (text, true)) else Ok (i, (wsp ++ text, true)))
    (attempt (take_while1 is_vchar i)
       (fun '(i, text) => Ok (i, (wsp ++ text, false)))
       (Err (Unknown "No match arm is matching the data"))).

(* combinators.rs:174-187 applied to that closure *)
Fixpoint mime_unstructured_loop (E : env) (n : nat) (previous_was_encoded : bool) (i : bytes)
  : res (bytes * bytes) :=
  match n with
  | 0 => Crash OutOfFuel
  | S n' =>
    attempt (mime_unstructured_step E previous_was_encoded i)
      (fun '(i, (text, flag)) =>
         let* (r, rest) := mime_unstructured_loop E n' flag i in Ok (r, text ++ rest))
      (Ok (i, []))
  end.

(* common.rs:124-151 *)
Definition mime_unstructured (E : env) : parser bytes := fun i =>
  let* (i, output) := mime_unstructured_loop E (S (length i)) false i in
  let* (i, _) := ignore_many (take_while1 is_wsp) i in
  Ok (i, output).

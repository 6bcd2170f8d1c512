(* parsing/quoted_string.rs:30-88 *)
From Verif Require Import Base Utf8 CharSets Combinators Whitespace.

(* `if let Ok((input, _cfws)) = cfws(input) { input } else { input }` *)
Definition skip_cfws (i : bytes) : res bytes :=
  attempt (cfws i) (fun '(r, _) => Ok r) (Ok i).

(* quoted_string.rs:44-66: one turn of the loop *)
Definition quoted_string_step : parser bytes := fun i =>
  let* (i', w) := attempt (fws i) (fun '(r, s) => Ok (r, s)) (Ok (i, [])) in
  attempt (take_while1 is_qtext i') (fun '(r, s) => Ok (r, w ++ s))
    (attempt (quoted_pair i') (fun '(r, s) => Ok (r, w ++ s))
       (Err (Unknown "break"))).

(* quoted_string.rs:30-88 *)
Definition quoted_string : parser bytes := fun i =>
  let* i := skip_cfws i in
  if starts_with i [DQUOTE] then
    let* i := index_from i 1 in
    let* (i, output) := collect_many quoted_string_step i in
    let* (i, output) := attempt (fws i) (fun '(r, s) => Ok (r, output ++ s)) (Ok (i, output)) in
    if starts_with i [DQUOTE] then
      let* i := index_from i 1 in
      let* i := skip_cfws i in
      Ok (i, output)
    else Err (Unknown "Quoted string must end with a dquote")
  else Err (Unknown "Quoted string must begin with a dquote").

(* parsing/message.rs *)
From Verif Require Import Base Utf8 CharSets Combinators Fields.

(* message.rs:5-24, 26-39: stop at the first byte that is not text, or after 998 *)
Fixpoint line_loop (n : nat) (i : bytes) : bytes * bytes :=
  match n, i with
  | S n', c :: r => if is_text c then let (a, b) := line_loop n' r in (c :: a, b) else ([], i)
  | _, _ => ([], i)
  end.

(* message.rs:5-24 *)
Definition line : parser bytes := fun i =>
  let (a, r) := line_loop 998 i in
  let* s := str_unchecked a in Ok (r, s).

(* message.rs:26-39 *)
Definition check_line : parser unit := fun i =>
  let (a, r) := line_loop 998 i in Ok (r, tt).

(* message.rs:51-72 *)
Fixpoint body_lines_loop (n : nat) (i : bytes) : res (list bytes) :=
  match n with
  | 0 => Crash OutOfFuel
  | S n' =>
    let* (i', l) := line i in
    match tag CRLF "TAG ERROR: In a body, a line must end with a CRLF sequence." i' with
    | Ok (i'', _) => let* r := body_lines_loop n' i'' in Ok (l :: r)
    | Err e => match i' with [] => Ok [l] | _ :: _ => Err e end
    | Crash c => Crash c
    end
  end.

(* message.rs:41-73 *)
Definition body_lines (i : bytes) : res (list bytes) :=
  match i with
  | [] => Ok []
  | _ :: _ =>
    let* (i, _) := tag CRLF "TAG ERROR: Headers must be followed by a CRLF sequence." i in
    body_lines_loop (S (length i)) i
  end.

(* message.rs:86-102 *)
Fixpoint body_loop (n : nat) (i : bytes) : res unit :=
  match n with
  | 0 => Crash OutOfFuel
  | S n' =>
    let* (i', _) := check_line i in
    match tag CRLF "TAG ERROR: In a body, a line must end with a CRLF sequence." i' with
    | Ok (i'', _) => body_loop n' i''
    | Err e => match i' with [] => Ok tt | _ :: _ => Err e end
    | Crash c => Crash c
    end
  end.

(* message.rs:75-108 *)
Definition body (i : bytes) : res (option bytes) :=
  match i with
  | [] => Ok None
  | _ :: _ =>
    let* (i', _) := tag CRLF "TAG ERROR: Headers must be followed by a CRLF sequence." i in
    let* _ := body_loop (S (length i')) i' in
    let* b := unchecked_from i 2 in
    let* s := str_unchecked b in
    Ok (Some s)
  end.

(* message.rs:118-133 (after `fields`): with mime, the body is not inspected *)
Definition mime_body (i : bytes) : res (option bytes) :=
  match i with
  | [] => Ok None
  | _ :: _ =>
    let* (i', _) := tag CRLF "TAG ERROR: Headers must be followed by a CRLF sequence." i in
    Ok (Some i')
  end.

(* message.rs:110-133 *)
Definition parse_message (E : env) (i : bytes) : res (list field * option bytes) :=
  let* (i, fs) := fields E i in
  let* b := (if f_mime E then mime_body i else body i) in
  Ok (fs, b).

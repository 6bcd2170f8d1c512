(* address.rs and parsing/address.rs *)
From Verif Require Import Base Utf8 CharSets Combinators Whitespace QuotedString EncodedWord Common.

(* address.rs:1-22 *)
Record email_address := { a_local_part : bytes; a_domain : bytes }.
Record mailbox_t := { m_name : option (list bytes); m_address : email_address }.
Inductive address_t :=
| AMailbox (m : mailbox_t)
| AGroup (g : list bytes * list mailbox_t).

(* parsing/address.rs:6-19 *)
Definition no_fold_litteral : parser bytes := fun i =>
  let* (i, _) := tag (bs "[") "TAG ERROR: In message_id, a no_fold_litteral domain must be preceded by a `[`." i in
  let* (i, d) := take_while is_dtext i in
  let* (i, _) := tag (bs "]") "TAG ERROR: In message_id, a no_fold_litteral domain must be closed by a `]`." i in
  Ok (i, d).

(* parsing/address.rs:5-42 *)
Definition message_id (E : env) : parser (bytes * bytes) := fun i =>
  let* (i, _) := optional cfws i in
  let* (i, _) := tag (bs "<") "TAG ERROR: A message ID must start with a `<`." i in
  let* (i, id_left) := dot_atom_text E i in
  let* (i, _) := tag (bs "@") "TAG ERROR: A message ID right part must be followed by a `@`." i in
  let* (i, id_right) := match_parsers [dot_atom_text E; no_fold_litteral] i in
  let* (i, _) := tag (bs ">") "TAG ERROR: A message ID left part must be followed by a `>`." i in
  let* (i, _) := optional cfws i in
  Ok (i, (id_left, id_right)).

(* parsing/address.rs:81-83 *)
Definition local_part (E : env) : parser bytes := match_parsers [dot_atom E; quoted_string].

(* parsing/address.rs:97-106: one turn of the loop *)
Definition domain_literal_step : parser bytes := fun i =>
  let* (i, _) := optional fws i in
  take_while1 is_dtext i.

(* parsing/address.rs:89-115 *)
Definition domain_literal : parser bytes := fun i =>
  let* (i, _) := optional cfws i in
  let* (i, _) := tag (bs "[") "TAG ERROR: A domain litteral must be preceded by a `[`." i in
  let* (i, output) := collect_many domain_literal_step i in
  let* (i, _) := optional fws i in
  let* (i, _) := tag (bs "]") "TAG ERROR: A domain litteral must be followed by a `]`." i in
  let* (i, _) := optional cfws i in
  Ok (i, output).

(* parsing/address.rs:85-87 *)
Definition domain (E : env) : parser bytes := match_parsers [dot_atom E; domain_literal].

(* parsing/address.rs:44-53 *)
Definition addr_spec (E : env) : parser email_address := fun i =>
  let* (i, l) := local_part E i in
  let* (i, _) := tag (bs "@") "TAG ERROR: An address local part must be followed by a `@`." i in
  let* (i, d) := domain E i in
  Ok (i, {| a_local_part := l; a_domain := d |}).

(* parsing/address.rs:55-66 *)
Definition angle_addr (E : env) : parser email_address := fun i =>
  let* (i, _) := optional cfws i in
  let* (i, _) := tag (bs "<") "TAG ERROR: A angle_addr must start with a `<`." i in
  let* (i, a) := addr_spec E i in
  let* (i, _) := tag (bs ">") "TAG ERROR: A angle_addr must end with a `>`." i in
  let* (i, _) := optional cfws i in
  Ok (i, a).

(* parsing/address.rs:68-79 *)
Definition name_addr (E : env) : parser mailbox_t := fun i =>
  let* (i, n) := optional (phrase E) i in
  let* (i, a) := angle_addr E i in
  Ok (i, {| m_name := n; m_address := a |}).

(* parsing/address.rs:117-135 *)
Definition mailbox (E : env) : parser mailbox_t :=
  match_parsers [ name_addr E; pmap (fun a => {| m_name := None; m_address := a |}) (addr_spec E) ].

(* parsing/address.rs:137-148 *)
Definition mailbox_list (E : env) : parser (list mailbox_t) := fun i =>
  let* (i, m) := mailbox E i in
  let* (i, l) := many (prefixed (mailbox E) (bs ",")) i in
  Ok (i, m :: l).

(* parsing/address.rs:150-175 *)
Definition group (E : env) : parser (list bytes * list mailbox_t) := fun i =>
  let* (i, n) := phrase E i in
  let* (i, _) := tag (bs ":") "TAG ERROR: A group display name must be followed by a `:`." i in
  let* (i, l) := attempt (mailbox_list E i) (fun ra => Ok ra)
                   (attempt (cfws i) (fun '(i', _) => Ok (i', [])) (Ok (i, []))) in
  let* (i, _) := tag (bs ";") "TAG ERROR: A group mailbox list must be closed by a `;`." i in
  let* (i, _) := optional cfws i in
  Ok (i, (n, l)).

(* parsing/address.rs:177-185 *)
Definition address (E : env) : parser address_t := fun i =>
  attempt (mailbox E i) (fun '(i, m) => Ok (i, AMailbox m))
    (attempt (group E i) (fun '(i, g) => Ok (i, AGroup g))
       (Err (Unknown "Invalid address: not a mailbox nor a group"))).

(* parsing/address.rs:187-198 *)
Definition address_list (E : env) : parser (list address_t) := fun i =>
  let* (i, a) := address E i in
  let* (i, l) := many (prefixed (address E) (bs ",")) i in
  Ok (i, a :: l).

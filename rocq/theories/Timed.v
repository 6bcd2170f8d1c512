(* The parser again, counting the work it does, for the builds without mime.

   Every definition below is the one of the same name (without the t_) in the model, and its
   comment cites the same lines; TimedErase.v proves that both return the same results. The work
   is counted in elementary operations:
   - a comparison with a constant: one, and one for each byte of the constant;
   - a loop over bytes: one, and one for each byte passed;
   - a turn of a loop over parsers: one;
   - String::add_string and add_str: one for each byte of both strings. In a loop, the strings
     are copied once when the result becomes an owned String, and appended to it once: two for
     each byte (Vec::push and String::push_str are counted as amortised);
   - everything else in a parser is bounded by a constant and not counted by itself. *)
From Verif Require Import Base Utf8 CharSets Combinators Whitespace QuotedString Common Time Address MimeFields Fields Message Email.

(* a result and the work done *)
Definition timed (A : Type) : Type := res A * nat.
Definition t_ok {A} (a : A) : timed A := (Ok a, 0).
Definition t_err {A} (e : error) : timed A := (Err e, 0).
(* n operations, with a result that is already known *)
Definition t_step {A} (n : nat) (x : res A) : timed A := (x, n).
Definition t_bind {A B} (x : timed A) (k : A -> timed B) : timed B :=
  match x with
  | (Ok a, n) => let r := k a in (fst r, n + snd r)
  | (Err e, n) => (Err e, n)
  | (Crash c, n) => (Crash c, n)
  end.
Notation "'let+' p := e 'in' k" := (t_bind e (fun p => k))
  (at level 200, p pattern, e at level 100, k at level 200, right associativity).
Definition t_attempt {A B} (x : timed A) (k : A -> timed B) (f : timed B) : timed B :=
  match x with
  | (Ok a, n) => let r := k a in (fst r, n + snd r)
  | (Err _, n) => (fst f, n + snd f)
  | (Crash c, n) => (Crash c, n)
  end.
Definition t_map_err {A} (x : timed A) (e : error) : timed A := (map_err (fst x) e, snd x).
Definition timed_parser (A : Type) := bytes -> timed (bytes * A).

(* ---- combinators.rs ---- *)
(* combinators.rs:4-16 *)
Definition t_tag (expected : bytes) (msg : string) : timed_parser unit := fun i =>
  t_step (S (length expected)) (tag expected msg i).
(* slice::starts_with *)
Definition t_starts_with (i p : bytes) : timed bool := t_step (S (length p)) (Ok (starts_with i p)).
(* combinators.rs:18-56 *)
Definition t_tag_no_case (E : env) (e1 e2 : bytes) (msg : string) : timed_parser unit := fun i =>
  t_step (S (length e1 + length e2)) (tag_no_case E e1 e2 msg i).
(* combinators.rs:58-68 *)
Definition t_optional {A} (p : timed_parser A) (i : bytes) : timed (bytes * option A) :=
  t_attempt (p i) (fun '(r, a) => t_ok (r, Some a)) (t_ok (i, None)).
(* combinators.rs:70-82 *)
Fixpoint t_match_parsers {A} (ps : list (timed_parser A)) (i : bytes) : timed (bytes * A) :=
  match ps with
  | [] => t_err (Unknown "No match arm is matching the data")
  | p :: ps' => t_attempt (p i) (fun ra => t_ok ra) (t_match_parsers ps' i)
  end.
(* combinators.rs:84-100 *)
Definition t_take_while (f : byte -> bool) : timed_parser bytes := fun i =>
  t_step (S (length (fst (span f i)))) (take_while f i).
(* combinators.rs:102-128 *)
Definition t_take_while1 (f : byte -> bool) : timed_parser bytes := fun i =>
  t_step (S (length (fst (span f i)))) (take_while1 f i).
(* combinators.rs:130-140, 142-155 *)
Fixpoint t_many_fuel {A} (n : nat) (p : timed_parser A) (i : bytes) : timed (bytes * list A) :=
  match n with
  | 0 => (Crash OutOfFuel, 0)
  | S n' =>
    let+ _ := t_step 1 (Ok tt) in
    t_attempt (p i)
      (fun '(i', a) => let+ (r, l) := t_many_fuel n' p i' in t_ok (r, a :: l))
      (t_ok (i, []))
  end.
Definition t_many {A} (p : timed_parser A) (i : bytes) : timed (bytes * list A) :=
  t_many_fuel (S (length i)) p i.
(* combinators.rs:130-140 *)
Definition t_ignore_many {A} (p : timed_parser A) (i : bytes) : timed (bytes * unit) :=
  let+ (r, _) := t_many p i in t_ok (r, tt).
(* combinators.rs:157-172 *)
Definition t_many1 {A} (p : timed_parser A) (i : bytes) : timed (bytes * list A) :=
  let+ (i, a) := p i in
  let+ (r, l) := t_many p i in
  t_ok (r, a :: l).
(* combinators.rs:174-187 *)
Definition t_collect_many (p : timed_parser bytes) (i : bytes) : timed (bytes * bytes) :=
  let+ (r, l) := t_many p i in
  t_step (2 * length (concat l)) (Ok (r, concat l)).
(* combinators.rs:189-199 *)
Definition t_pair_p {A B} (p : timed_parser A) (q : timed_parser B) (i : bytes) : timed (bytes * (A * B)) :=
  let+ (i, a) := p i in
  let+ (i, b) := q i in
  t_ok (i, (a, b)).
(* String::add_string, add_str *)
Definition t_concat (a b : bytes) : timed bytes := t_step (length a + length b) (Ok (a ++ b)).
(* combinators.rs:220-231 *)
Definition t_collect_pair (p q : timed_parser bytes) (i : bytes) : timed (bytes * bytes) :=
  let+ (i, a) := p i in
  let+ (i, b) := q i in
  let+ s := t_concat a b in
  t_ok (i, s).
(* combinators.rs:233-248 *)
Definition t_prefixed {A} (p : timed_parser A) (prefix : bytes) (i : bytes) : timed (bytes * A) :=
  let+ b := t_starts_with i prefix in
  if b : bool then
    let+ r := t_step 0 (unchecked_from i (length prefix)) in p r
  else t_err (Unknown "Expected a prefix").
Definition t_pmap {A B} (f : A -> B) (p : timed_parser A) : timed_parser B := fun i =>
  let+ (r, a) := p i in t_ok (r, f a).

(* ---- whitespaces.rs, quoted_string.rs ---- *)
(* quoted_string.rs:4-28 *)
Definition t_quoted_pair : timed_parser bytes := fun i => t_step 3 (quoted_pair i).
(* whitespaces.rs:4-28 *)
Definition t_fws : timed_parser bytes := fun i =>
  let+ (i, before) :=
    t_optional (t_pair_p (t_take_while is_wsp)
                     (t_tag CRLF "TAG ERROR: A folding whitespace must end with a `\r\n` sequence.")) i in
  let+ (i, after) := t_take_while1 is_wsp i in
  match before with
  | Some (b, _) => let+ s := t_concat b after in t_ok (i, s)
  | None => t_ok (i, after)
  end.
(* whitespaces.rs:30-57 *)
Fixpoint t_comment_d (depth : nat) (i : bytes) : timed (bytes * bytes) :=
  match depth with
  | 0 => (Crash OutOfFuel, 0)
  | S d =>
    let ccontent := t_match_parsers [t_take_while1 is_ctext; t_quoted_pair; t_comment_d d] in
    let+ (i, _) := t_tag (bs "(") "TAG ERROR: A comment must start with a `(`." i in
    let+ (i, _) := t_ignore_many (t_pair_p (t_optional t_fws) ccontent) i in
    let+ (i, _) := t_optional t_fws i in
    let+ (i, _) := t_tag (bs ")") "TAG ERROR: A comment must end with a `)`." i in
    t_ok (i, [])
  end.
(* whitespaces.rs:45-57 *)
Definition t_comment : timed_parser bytes := fun i => t_comment_d (S (length i)) i.
(* whitespaces.rs:64-71, 75-84 *)
Definition t_fws_comment : timed_parser bytes := fun i =>
  let+ (i, w) := t_optional t_fws i in
  let+ (i, _) := t_comment i in
  t_ok (i, match w with Some s => s | None => [] end).
(* whitespaces.rs:61-93 *)
Definition t_real_cfws : timed_parser bytes := fun i =>
  let+ (i, first) := t_map_err (t_fws_comment i) (Unknown "Expected at least one comment") in
  let+ (i, others) := t_many t_fws_comment i in
  let+ (i, last) := t_optional t_fws i in
  let s := first ++ concat others ++ match last with Some s => s | None => [] end in
  t_step (2 * length s) (Ok (i, s)).
(* whitespaces.rs:59-96 *)
Definition t_cfws : timed_parser bytes := t_match_parsers [t_real_cfws; t_fws].
(* quoted_string.rs:31-36, 77-81 *)
Definition t_skip_cfws (i : bytes) : timed bytes :=
  t_attempt (t_cfws i) (fun '(r, _) => t_ok r) (t_ok i).
(* quoted_string.rs:44-66 *)
Definition t_quoted_string_step : timed_parser bytes := fun i =>
  let+ (i', w) := t_attempt (t_fws i) (fun '(r, s) => t_ok (r, s)) (t_ok (i, [])) in
  t_attempt (t_take_while1 is_qtext i') (fun '(r, s) => let+ s := t_concat w s in t_ok (r, s))
    (t_attempt (t_quoted_pair i') (fun '(r, s) => let+ s := t_concat w s in t_ok (r, s))
       (t_err (Unknown "break"))).
(* quoted_string.rs:30-88 *)
Definition t_quoted_string : timed_parser bytes := fun i =>
  let+ i := t_skip_cfws i in
  let+ b := t_starts_with i [DQUOTE] in
  if b : bool then
    let+ i := t_step 0 (index_from i 1) in
    let+ (i, output) := t_collect_many t_quoted_string_step i in
    let+ (i, output) := t_attempt (t_fws i) (fun '(r, s) => let+ s := t_concat output s in t_ok (r, s)) (t_ok (i, output)) in
    let+ b := t_starts_with i [DQUOTE] in
    if b : bool then
      let+ i := t_step 0 (index_from i 1) in
      let+ i := t_skip_cfws i in
      t_ok (i, output)
    else t_err (Unknown "Quoted string must end with a dquote")
  else t_err (Unknown "Quoted string must begin with a dquote").

(* ---- common.rs ---- *)
(* common.rs:17-27 *)
Definition t_atom : timed_parser bytes := fun i =>
  let+ i := t_skip_cfws i in
  let+ (i, a) := t_map_err (t_take_while1 is_atext i) (Unknown "Atom required") in
  let+ i := t_skip_cfws i in
  t_ok (i, a).
(* common.rs:34-44 *)
Definition t_dot_atom_step (E : env) : timed_parser bytes := fun i =>
  let+ b := t_starts_with i (bs ".") in
  if b : bool then
    let+ rest := t_step 0 (index_from i 1) in
    let+ (r, a) := if f_compatibility_fixes E then t_take_while is_atext rest else t_take_while1 is_atext rest in
    let+ s := t_concat (bs ".") a in
    t_ok (r, s)
  else t_err (Unknown "break").
(* common.rs:29-52 *)
Definition t_dot_atom_text (E : env) : timed_parser bytes := fun i =>
  let+ (i, first) := t_take_while1 is_atext i in
  let+ (i, others) := t_collect_many (t_dot_atom_step E) i in
  let+ s := t_concat first others in
  t_ok (i, s).
(* common.rs:54-63 *)
Definition t_dot_atom (E : env) : timed_parser bytes := fun i =>
  let+ i := t_skip_cfws i in
  let+ (i, a) := t_dot_atom_text E i in
  let+ i := t_skip_cfws i in
  t_ok (i, a).
(* common.rs:65-76 *)
Definition t_word : timed_parser bytes := t_match_parsers [t_atom; t_quoted_string].
(* common.rs:93-103, without mime *)
Definition t_phrase : timed_parser (list bytes) := t_many1 t_word.
(* common.rs:106-115 *)
Definition t_unstructured_step : timed_parser bytes := fun i =>
  t_collect_pair (fun i => t_attempt (t_fws i) (fun ra => t_ok ra) (t_ok (i, []))) (t_take_while1 is_vchar) i.
(* common.rs:105-122 *)
Definition t_unstructured : timed_parser bytes := fun i =>
  let+ (i, output) := t_collect_many t_unstructured_step i in
  let+ (i, _) := t_ignore_many (t_take_while1 is_wsp) i in
  t_ok (i, output).

(* ---- parsing/address.rs ---- *)
(* parsing/address.rs:6-19 *)
Definition t_no_fold_litteral : timed_parser bytes := fun i =>
  let+ (i, _) := t_tag (bs "[") "TAG ERROR: In message_id, a no_fold_litteral domain must be preceded by a `[`." i in
  let+ (i, d) := t_take_while is_dtext i in
  let+ (i, _) := t_tag (bs "]") "TAG ERROR: In message_id, a no_fold_litteral domain must be closed by a `]`." i in
  t_ok (i, d).
(* parsing/address.rs:5-42 *)
Definition t_message_id (E : env) : timed_parser (bytes * bytes) := fun i =>
  let+ (i, _) := t_optional t_cfws i in
  let+ (i, _) := t_tag (bs "<") "TAG ERROR: A message ID must start with a `<`." i in
  let+ (i, id_left) := t_dot_atom_text E i in
  let+ (i, _) := t_tag (bs "@") "TAG ERROR: A message ID right part must be followed by a `@`." i in
  let+ (i, id_right) := t_match_parsers [t_dot_atom_text E; t_no_fold_litteral] i in
  let+ (i, _) := t_tag (bs ">") "TAG ERROR: A message ID left part must be followed by a `>`." i in
  let+ (i, _) := t_optional t_cfws i in
  t_ok (i, (id_left, id_right)).
(* parsing/address.rs:81-83 *)
Definition t_local_part (E : env) : timed_parser bytes := t_match_parsers [t_dot_atom E; t_quoted_string].
(* parsing/address.rs:97-106 *)
Definition t_domain_literal_step : timed_parser bytes := fun i =>
  let+ (i, _) := t_optional t_fws i in
  t_take_while1 is_dtext i.
(* parsing/address.rs:89-115 *)
Definition t_domain_literal : timed_parser bytes := fun i =>
  let+ (i, _) := t_optional t_cfws i in
  let+ (i, _) := t_tag (bs "[") "TAG ERROR: A domain litteral must be preceded by a `[`." i in
  let+ (i, output) := t_collect_many t_domain_literal_step i in
  let+ (i, _) := t_optional t_fws i in
  let+ (i, _) := t_tag (bs "]") "TAG ERROR: A domain litteral must be followed by a `]`." i in
  let+ (i, _) := t_optional t_cfws i in
  t_ok (i, output).
(* parsing/address.rs:85-87 *)
Definition t_domain (E : env) : timed_parser bytes := t_match_parsers [t_dot_atom E; t_domain_literal].
(* parsing/address.rs:44-53 *)
Definition t_addr_spec (E : env) : timed_parser email_address := fun i =>
  let+ (i, l) := t_local_part E i in
  let+ (i, _) := t_tag (bs "@") "TAG ERROR: An address local part must be followed by a `@`." i in
  let+ (i, d) := t_domain E i in
  t_ok (i, {| a_local_part := l; a_domain := d |}).
(* parsing/address.rs:55-66 *)
Definition t_angle_addr (E : env) : timed_parser email_address := fun i =>
  let+ (i, _) := t_optional t_cfws i in
  let+ (i, _) := t_tag (bs "<") "TAG ERROR: A angle_addr must start with a `<`." i in
  let+ (i, a) := t_addr_spec E i in
  let+ (i, _) := t_tag (bs ">") "TAG ERROR: A angle_addr must end with a `>`." i in
  let+ (i, _) := t_optional t_cfws i in
  t_ok (i, a).
(* parsing/address.rs:68-79 *)
Definition t_name_addr (E : env) : timed_parser mailbox_t := fun i =>
  let+ (i, n) := t_optional t_phrase i in
  let+ (i, a) := t_angle_addr E i in
  t_ok (i, {| m_name := n; m_address := a |}).
(* parsing/address.rs:117-135 *)
Definition t_mailbox (E : env) : timed_parser mailbox_t :=
  t_match_parsers [ t_name_addr E; t_pmap (fun a => {| m_name := None; m_address := a |}) (t_addr_spec E) ].
(* parsing/address.rs:137-148 *)
Definition t_mailbox_list (E : env) : timed_parser (list mailbox_t) := fun i =>
  let+ (i, m) := t_mailbox E i in
  let+ (i, l) := t_many (t_prefixed (t_mailbox E) (bs ",")) i in
  t_ok (i, m :: l).
(* parsing/address.rs:150-175 *)
Definition t_group (E : env) : timed_parser (list bytes * list mailbox_t) := fun i =>
  let+ (i, n) := t_phrase i in
  let+ (i, _) := t_tag (bs ":") "TAG ERROR: A group display name must be followed by a `:`." i in
  let+ (i, l) := t_attempt (t_mailbox_list E i) (fun ra => t_ok ra)
                   (t_attempt (t_cfws i) (fun '(i', _) => t_ok (i', [])) (t_ok (i, []))) in
  let+ (i, _) := t_tag (bs ";") "TAG ERROR: A group mailbox list must be closed by a `;`." i in
  let+ (i, _) := t_optional t_cfws i in
  t_ok (i, (n, l)).
(* parsing/address.rs:177-185 *)
Definition t_address (E : env) : timed_parser address_t := fun i =>
  t_attempt (t_mailbox E i) (fun '(i, m) => t_ok (i, AMailbox m))
    (t_attempt (t_group E i) (fun '(i, g) => t_ok (i, AGroup g))
       (t_err (Unknown "Invalid address: not a mailbox nor a group"))).
(* parsing/address.rs:187-198 *)
Definition t_address_list (E : env) : timed_parser (list address_t) := fun i =>
  let+ (i, a) := t_address E i in
  let+ (i, l) := t_many (t_prefixed (t_address E) (bs ",")) i in
  t_ok (i, a :: l).

(* ---- parsing/time.rs ---- *)
(* parsing/time.rs:3-21, 23-46: three bytes, compared with each name *)
Definition t_day_name : timed_parser day_t := fun i => t_step 24 (day_name i).
Definition t_month : timed_parser month_t := fun i => t_step 39 (month i).
(* character_sets.rs:30-44 *)
Definition t_digit : timed_parser N := fun i => t_step 1 (digit i).
(* character_sets.rs:46-51 *)
Definition t_two_digits (E : env) : timed_parser N := fun i => t_step 2 (two_digits E i).
(* parsing/time.rs:48-57 *)
Definition t_day_of_week : timed_parser day_t := fun i =>
  let+ (i, _) := t_optional t_fws i in
  let+ (i, day) := t_day_name i in
  let+ (i, _) := t_tag (bs ",") "TAG ERROR: In a day_of_week, a day name must be followed by a comma." i in
  t_ok (i, day).
(* parsing/time.rs:59-78; str::parse is a loop over the digits *)
Definition t_year : timed_parser N := fun i =>
  let+ (i, _) := t_fws i in
  let+ (i, y) := t_map_err (t_take_while1 is_digit i) (Unknown "no digit in year") in
  if (length y <? 4)%nat then t_err (Unknown "year is expected to have 4 digits or more")
  else
    let+ y := t_step (length y) (ok_or (parse_below usize_bound y) (Unknown "Failed to parse year")) in
    if (y <? 1990)%N then t_err (Unknown "year must be after 1990")
    else
      let+ (i, _) := t_fws i in
      t_ok (i, y).
(* parsing/time.rs:80-93 *)
Definition t_day (E : env) : timed_parser N := fun i =>
  let+ (i, _) := t_optional t_fws i in
  let+ (i, d) := t_digit i in
  let+ (i, d) := t_attempt (t_digit i)
    (fun '(i', d2) => let+ t := t_step 0 (u8_mul E d 10) in let+ v := t_step 0 (u8_add E t d2) in t_ok (i', v))
    (t_ok (i, d)) in
  if (31 <? d)%N then t_err (Unknown "day must be less than 31")
  else
    let+ (i, _) := t_fws i in
    t_ok (i, d).
(* parsing/time.rs:95-137 *)
Definition t_time_of_day (E : env) : timed_parser time_t := fun i => t_step 12 (time_of_day E i).
(* parsing/time.rs:139-165 *)
Definition t_zone (E : env) : timed_parser zone_t := fun i =>
  let+ (i, _) := t_fws i in
  let+ sign := t_step 2
    match i with
    | [] => Err (Unknown "Expected more characters in zone")
    | c :: _ => if (c =? 43)%N then Ok true else if (c =? 45)%N then Ok false
                else Err (Unknown "Invalid sign character in zone")
    end in
  let+ i := t_step 0 (index_from i 1) in
  let+ (i, h) := t_two_digits E i in
  let+ (i, m) := t_two_digits E i in
  if (59 <? m)%N then t_err (Unknown "zone minute_offset out of range")
  else t_ok (i, {| z_sign := sign; z_hour_offset := h; z_minute_offset := m |}).
(* parsing/time.rs:167-171 *)
Definition t_time (E : env) : timed_parser time_with_zone := fun i =>
  let+ (i, t) := t_time_of_day E i in
  let+ (i, z) := t_zone E i in
  t_ok (i, {| tz_time := t; tz_zone := z |}).
(* parsing/time.rs:173-178 *)
Definition t_date (E : env) : timed_parser date_t := fun i =>
  let+ (i, d) := t_day E i in
  let+ (i, m) := t_month i in
  let+ (i, y) := t_year i in
  t_ok (i, {| d_day := d; d_month := m; d_year := y |}).
(* parsing/time.rs:180-193 *)
Definition t_date_time (E : env) : timed_parser date_time_t := fun i =>
  let+ (i, d) := t_optional t_day_of_week i in
  let+ (i, dd) := t_date E i in
  let+ (i, t) := t_time E i in
  let+ (i, _) := t_optional t_cfws i in
  t_ok (i, {| dt_day_name := d; dt_date := dd; dt_time := t |}).

(* ---- fields.rs ---- *)
Definition t_header {A} (E : env) (e1 e2 : string) (name_err : string) (value : timed_parser A) (end_err : string)
  : timed_parser A := fun i =>
  let+ (i, _) := t_tag_no_case E (bs e1) (bs e2) name_err i in
  let+ (i, v) := value i in
  let+ (i, _) := t_tag CRLF end_err i in
  t_ok (i, v).
(* fields.rs:170-185 *)
Definition t_field_date (E : env) : timed_parser date_time_t :=
  t_header E "Date:" "dATE:" "TAG NO CASE ERROR: Header name (Date) does not match."
    (t_date_time E) "TAG ERROR: A header (`Date` in this case) must end with a CRLF sequence.".
(* fields.rs:187-202 *)
Definition t_field_from (E : env) : timed_parser (list mailbox_t) :=
  t_header E "From:" "fROM:" "TAG NO CASE ERROR: Header name (From) does not match."
    (t_mailbox_list E) "TAG ERROR: A header (`From` in this case) must end with a CRLF sequence.".
(* fields.rs:204-219 *)
Definition t_field_sender (E : env) : timed_parser mailbox_t :=
  t_header E "Sender:" "sENDER:" "TAG NO CASE ERROR: Header name (Sender) does not match."
    (t_mailbox E) "TAG ERROR: A header (`Sender` in this case) must end with a CRLF sequence.".
(* fields.rs:221-236 *)
Definition t_field_reply_to (E : env) : timed_parser (list address_t) :=
  t_header E "Reply-To:" "rEPLY-tO:" "TAG NO CASE ERROR: Header name (Reply-To) does not match."
    (t_address_list E) "TAG ERROR: A header (`Reply-To` in this case) must end with a CRLF sequence.".
(* fields.rs:238-253 *)
Definition t_field_to (E : env) : timed_parser (list address_t) :=
  t_header E "To:" "tO:" "TAG NO CASE ERROR: Header name (To) does not match."
    (t_address_list E) "TAG ERROR: A header (`To` in this case) must end with a CRLF sequence.".
(* fields.rs:255-270 *)
Definition t_field_cc (E : env) : timed_parser (list address_t) :=
  t_header E "Cc:" "cC:" "TAG NO CASE ERROR: Header name (Cc) does not match."
    (t_address_list E) "TAG ERROR: A header (`Cc` in this case) must end with a CRLF sequence.".
(* fields.rs:279-285 *)
Definition t_bcc_value (E : env) : timed_parser (list address_t) := fun i =>
  t_attempt (t_address_list E i) (fun ra => t_ok ra)
    (t_attempt (t_cfws i) (fun '(i, _) => t_ok (i, []))
       (t_err (Unknown "Invalid bcc field"))).
(* fields.rs:272-293 *)
Definition t_field_bcc (E : env) : timed_parser (list address_t) :=
  t_header E "Bcc:" "bCC:" "TAG NO CASE ERROR: Header name (Bcc) does not match."
    (t_bcc_value E) "TAG ERROR: A header (`Bcc` in this case) must end with a CRLF sequence.".
(* fields.rs:295-310 *)
Definition t_field_message_id (E : env) : timed_parser (bytes * bytes) :=
  t_header E "Message-ID:" "mESSAGE-id:" "TAG NO CASE ERROR: Header name (Message-ID) does not match."
    (t_message_id E) "TAG ERROR: A header (`Message-ID` in this case) must end with a CRLF sequence.".
(* fields.rs:312-327 *)
Definition t_field_in_reply_to (E : env) : timed_parser (list (bytes * bytes)) :=
  t_header E "In-Reply-To:" "iN-rEPLY-tO:" "TAG NO CASE ERROR: Header name (Reply-To) does not match."
    (t_many1 (t_message_id E)) "TAG ERROR: A header (`In-Reply-To` in this case) must end with a CRLF sequence.".
(* fields.rs:329-344 *)
Definition t_field_references (E : env) : timed_parser (list (bytes * bytes)) :=
  t_header E "References:" "rEFERENCES:" "TAG NO CASE ERROR: Header name (References) does not match."
    (t_many1 (t_message_id E)) "TAG ERROR: A header (`References` in this case) must end with a CRLF sequence.".
(* fields.rs:346-364 *)
Definition t_field_subject (E : env) : timed_parser bytes :=
  t_header E "Subject:" "sUBJECT:" "TAG NO CASE ERROR: Header name (Subject) does not match."
    t_unstructured "TAG ERROR: A header (`Subject` in this case) must end with a CRLF sequence.".
(* fields.rs:366-384 *)
Definition t_field_comments (E : env) : timed_parser bytes :=
  t_header E "Comments:" "cOMMENTS:" "TAG NO CASE ERROR: Header name (Comments) does not match."
    t_unstructured "TAG ERROR: A header (`Comments` in this case) must end with a CRLF sequence.".
(* fields.rs:394-401; the Vec::append of email.rs:238 is counted here *)
Definition t_keywords_value : timed_parser (list (list bytes)) := fun i =>
  let+ (i, k) := t_phrase i in
  let+ (i, l) := t_many (t_prefixed t_phrase (bs ",")) i in
  t_step (S (length l)) (Ok (i, k :: l)).
(* fields.rs:386-410 *)
Definition t_field_keywords (E : env) : timed_parser (list (list bytes)) :=
  t_header E "Keywords:" "kEYWORDS:" "TAG NO CASE ERROR: Header name (Keywords) does not match."
    t_keywords_value "TAG ERROR: A header (`Keywords` in this case) must end with a CRLF sequence.".
(* fields.rs:412-494 *)
Definition t_resent {A} (E : env) (name_err : string) (p : timed_parser A) : timed_parser A := fun i =>
  let+ (i, _) := t_tag_no_case E (bs "Resent-") (bs "rESENT-") name_err i in
  p i.
(* fields.rs:83-94 with 412-494 *)
Definition t_resent_field (E : env) : timed_parser trace_field :=
  t_match_parsers
    [ t_pmap TDate (t_resent E "TAG NO CASE ERROR: Header name (Resent-Date) does not match." (t_field_date E));
      t_pmap TFrom (t_resent E "TAG NO CASE ERROR: Header name (Resent-From) does not match." (t_field_from E));
      t_pmap TSender (t_resent E "TAG NO CASE ERROR: Header name (Resent-Sender) does not match." (t_field_sender E));
      t_pmap TTo (t_resent E "TAG NO CASE ERROR: Header name (Resent-To) does not match." (t_field_to E));
      t_pmap TCc (t_resent E "TAG NO CASE ERROR: Header name (Resent-Cc) does not match." (t_field_cc E));
      t_pmap TBcc (t_resent E "TAG NO CASE ERROR: Header name (Resent-Bcc) does not match." (t_field_bcc E));
      t_pmap TMessageId (t_resent E "TAG NO CASE ERROR: Header name (Resent-Message-ID) does not match." (t_field_message_id E)) ].
(* fields.rs:497-504 *)
Definition t_empty_path : timed_parser unit := fun i =>
  let+ (i, _) := t_optional t_cfws i in
  let+ (i, _) := t_tag (bs "<") "TAG ERROR: An empty path must start with `<`." i in
  let+ (i, _) := t_optional t_cfws i in
  let+ (i, _) := t_tag (bs ">") "TAG ERROR: An empty path must end with `>`." i in
  let+ (i, _) := t_optional t_cfws i in
  t_ok (i, tt).
(* fields.rs:512-520 *)
Definition t_return_path_value (E : env) : timed_parser (option email_address) :=
  t_match_parsers [ t_pmap Some (t_angle_addr E); t_pmap (fun _ : unit => None) t_empty_path ].
(* fields.rs:496-528 *)
Definition t_return_path (E : env) : timed_parser (option email_address) :=
  t_header E "Return-Path:" "rETURN-pATH:" "TAG NO CASE ERROR: Header name (Return-Path) does not match."
    (t_return_path_value E) "TAG ERROR: A header (`Return-Path` in this case) must end with a CRLF sequence.".
(* fields.rs:544-561 *)
Definition t_received_token_parser (E : env) : timed_parser received_token := fun i =>
  t_attempt (t_word i)
    (fun '(word_input, w) =>
       t_attempt (t_domain E i)
         (fun '(domain_input, d) =>
            if length w <? length d then t_ok (domain_input, RDomain d) else t_ok (word_input, RWord w))
         (t_ok (word_input, RWord w)))
    (t_attempt (t_angle_addr E i) (fun '(i, a) => t_ok (i, RAddr a))
       (t_attempt (t_addr_spec E i) (fun '(i, a) => t_ok (i, RAddr a))
          (t_attempt (t_domain E i) (fun '(i, d) => t_ok (i, RDomain d))
             (t_err (Unknown "match error"))))).
(* fields.rs:544-567 *)
Definition t_received_value (E : env) : timed_parser (list received_token * date_time_t) := fun i =>
  let+ (i, tokens) := t_many (t_received_token_parser E) i in
  let+ (i, _) := t_tag (bs ";") "TAG ERROR: Received tokens must be followed by a `;`." i in
  let+ (i, d) := t_date_time E i in
  t_ok (i, (tokens, d)).
(* fields.rs:537-575 *)
Definition t_received (E : env) : timed_parser (list received_token * date_time_t) :=
  t_header E "Received:" "rECEIVED:" "TAG NO CASE ERROR: Header name (Received) does not match."
    (t_received_value E) "TAG ERROR: A header (`Received` in this case) must end with a CRLF sequence.".
(* fields.rs:577-587 *)
Definition t_trace (E : env) : timed_parser (option (option email_address) * list (list received_token * date_time_t)) := fun i =>
  let+ (i, rp) := t_optional (t_return_path E) i in
  let+ (i, rc) := t_many1 (t_received E) i in
  t_ok (i, (rp, rc)).
(* fields.rs:589-608, without mime *)
Definition t_unknown : timed_parser (bytes * bytes) := fun i =>
  let+ (i, name) := t_take_while1 is_ftext i in
  let+ (i, _) := t_tag (bs ":") "TAG ERROR: A header name must be followed by a `:`." i in
  let+ (i, value) := t_unstructured i in
  let+ (i, _) := t_tag CRLF "TAG ERROR: A header must end with a CRLF sequence." i in
  t_ok (i, (name, value)).
(* fields.rs:79-105 *)
Definition t_trace_block (E : env) : timed_parser field := fun i =>
  let+ (i, (rp, rc)) := t_trace E i in
  let+ (i, l) := t_many (t_resent_field E) i in
  t_ok (i, FTrace rp rc l).
Definition t_cfg {A} (b : bool) (p : timed_parser A) : list (timed_parser A) := if b then [p] else [].
(* fields.rs:110-161, without mime *)
Definition t_field_parsers (E : env) : list (timed_parser field) :=
  t_cfg (f_date E) (t_pmap FDate (t_field_date E)) ++
  t_cfg (f_from E) (t_pmap FFrom (t_field_from E)) ++
  t_cfg (f_sender E) (t_pmap FSender (t_field_sender E)) ++
  t_cfg (f_reply_to E) (t_pmap FReplyTo (t_field_reply_to E)) ++
  t_cfg (f_to E) (t_pmap FTo (t_field_to E)) ++
  t_cfg (f_cc E) (t_pmap FCc (t_field_cc E)) ++
  t_cfg (f_bcc E) (t_pmap FBcc (t_field_bcc E)) ++
  t_cfg (f_message_id E) (t_pmap FMessageId (t_field_message_id E)) ++
  t_cfg (f_in_reply_to E) (t_pmap FInReplyTo (t_field_in_reply_to E)) ++
  t_cfg (f_references E) (t_pmap FReferences (t_field_references E)) ++
  t_cfg (f_subject E) (t_pmap FSubject (t_field_subject E)) ++
  t_cfg (f_comments E) (t_pmap FComments (t_field_comments E)) ++
  t_cfg (f_keywords E) (t_pmap FKeywords (t_field_keywords E)) ++
  [ t_pmap (fun '(n, v) => FUnknown n v) t_unknown ].
(* fields.rs:108-162 *)
Definition t_any_field (E : env) : timed_parser field := t_match_parsers (t_field_parsers E).
(* fields.rs:75-168 *)
Definition t_fields (E : env) : timed_parser (list field) := fun i =>
  let+ (i, t) := if f_trace E then t_many (t_trace_block E) i else t_ok (i, []) in
  let+ (i, l) := t_many (t_any_field E) i in
  t_ok (i, t ++ l).

(* ---- message.rs, email.rs ---- *)
(* message.rs:26-39 *)
Definition t_check_line : timed_parser unit := fun i =>
  t_step (S (length (fst (line_loop 998 i)))) (check_line i).
(* message.rs:86-102 *)
Fixpoint t_body_loop (n : nat) (i : bytes) : timed unit :=
  match n with
  | 0 => (Crash OutOfFuel, 0)
  | S n' =>
    let+ (i', _) := t_check_line i in
    match tag CRLF "TAG ERROR: In a body, a line must end with a CRLF sequence." i' with
    | Ok (i'', _) => let+ _ := t_step 3 (Ok tt) in t_body_loop n' i''
    | Err e => t_step 3 match i' with [] => Ok tt | _ :: _ => Err e end
    | Crash c => (Crash c, 0)
    end
  end.
(* message.rs:75-108 *)
Definition t_body (i : bytes) : timed (option bytes) :=
  match i with
  | [] => t_ok None
  | _ :: _ =>
    let+ (i', _) := t_tag CRLF "TAG ERROR: Headers must be followed by a CRLF sequence." i in
    let+ _ := t_body_loop (S (length i')) i' in
    let+ b := t_step 0 (unchecked_from i 2) in
    let+ s := t_step 0 (str_unchecked b) in
    t_ok (Some s)
  end.
(* message.rs:110-116, without mime *)
Definition t_parse_message (E : env) (i : bytes) : timed (list field * option bytes) :=
  let+ (i, fs) := t_fields E i in
  let+ b := t_body i in
  t_ok (fs, b).
(* email.rs:144-304: one for each field *)
Definition t_set_fields (a : acc) (fs : list field) : timed acc :=
  t_step (length fs) (set_fields a fs).
(* Mailbox::clone: one for each word of the name and for each byte *)
Definition mailbox_size (m : mailbox_t) : nat :=
  match m_name m with Some l => list_sum (map (fun w => S (length w)) l) | None => 0 end
  + length (a_local_part (m_address m)) + length (a_domain (m_address m)).
(* email.rs:306-386; `from[0].clone()` in line 316 *)
Definition t_finish (E : env) (a : acc) (b : option bytes) : timed email :=
  t_step (S match v_from a with Some [m] => mailbox_size m | _ => 0 end) (finish E a b).
(* email.rs:96-388 Email::parse, without mime *)
Definition t_parse (E : env) (data : bytes) : timed email :=
  let+ (fs, b) := t_parse_message E data in
  let+ a := t_set_fields acc0 fs in
  t_finish E a b.

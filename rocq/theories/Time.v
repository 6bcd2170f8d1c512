(* time.rs and parsing/time.rs *)
From Verif Require Import Base Utf8 CharSets Combinators Whitespace.
Local Open Scope N_scope.

(* time.rs:1-10 *)
Inductive day_t := Monday | Tuesday | Wednesday | Thursday | Friday | Saturday | Sunday.
(* time.rs:12-26 *)
Inductive month_t := January | February | March | April | May | June | July | August
                   | September | October | November | December.
(* time.rs:28-60; year : usize *)
Record zone_t := { z_sign : bool; z_hour_offset : N; z_minute_offset : N }.
Record time_t := { t_hour : N; t_minute : N; t_second : N }.
Record time_with_zone := { tz_time : time_t; tz_zone : zone_t }.
Record date_t := { d_day : N; d_month : month_t; d_year : N }.
Record date_time_t := { dt_day_name : option day_t; dt_date : date_t; dt_time : time_with_zone }.

(* parsing/time.rs:6-15 *)
Definition day_table : list (bytes * day_t) :=
  [ (bs "mon", Monday); (bs "tue", Tuesday); (bs "wed", Wednesday); (bs "thu", Thursday);
    (bs "fri", Friday); (bs "sat", Saturday); (bs "sun", Sunday) ].
(* parsing/time.rs:26-40 *)
Definition month_table : list (bytes * month_t) :=
  [ (bs "jan", January); (bs "feb", February); (bs "mar", March); (bs "apr", April);
    (bs "may", May); (bs "jun", June); (bs "jul", July); (bs "aug", August);
    (bs "sep", September); (bs "oct", October); (bs "nov", November); (bs "dec", December) ].

(* parsing/time.rs:3-21 *)
Definition day_name : parser day_t := fun i =>
  if (3 <=? length i)%nat then
    match map_get day_table (lowercase (firstn 3 i)) with
    | Some d => Ok (skipn 3 i, d)
    | None => Err (Unknown "Not a valid day_name")
    end
  else Err (Unknown "Expected day_name, but characters are missing (at least 3).").

(* parsing/time.rs:23-46 *)
Definition month : parser month_t := fun i =>
  if (3 <=? length i)%nat then
    match map_get month_table (lowercase (firstn 3 i)) with
    | Some d => Ok (skipn 3 i, d)
    | None => Err (Unknown "Not a valid month")
    end
  else Err (Unknown "Expected month, but characters are missing (at least 3).").

(* parsing/time.rs:48-57 *)
Definition day_of_week : parser day_t := fun i =>
  let* (i, _) := optional fws i in
  let* (i, day) := day_name i in
  let* (i, _) := tag (bs ",") "TAG ERROR: In a day_of_week, a day name must be followed by a comma." i in
  Ok (i, day).

(* str::parse::<usize>() / parse::<u8>() on a non-empty string of ASCII digits: the
   decimal value, or an error when it exceeds the type's maximum *)
Fixpoint decimal_acc (acc : N) (l : bytes) : N :=
  match l with [] => acc | c :: r => decimal_acc (10 * acc + (c - 48)) r end.
Definition decimal (l : bytes) : N := decimal_acc 0 l.
Definition parse_below (bound : N) (l : bytes) : option N :=
  let v := decimal l in if v <? bound then Some v else None.

(* usize is 64 bits wide *)
Definition usize_bound : N := 18446744073709551616.

(* parsing/time.rs:59-78 *)
Definition year : parser N := fun i =>
  let* (i, _) := fws i in
  let* (i, y) := map_err (take_while1 is_digit i) (Unknown "no digit in year") in
  if (length y <? 4)%nat then Err (Unknown "year is expected to have 4 digits or more")
  else
    let* y := ok_or (parse_below usize_bound y) (Unknown "Failed to parse year") in
    if y <? 1990 then Err (Unknown "year must be after 1990")
    else
      let* (i, _) := fws i in
      Ok (i, y).

(* parsing/time.rs:80-93 *)
Definition day (E : env) : parser N := fun i =>
  let* (i, _) := optional fws i in
  let* (i, d) := digit i in
  let* (i, d) := attempt (digit i)
    (fun '(i', d2) => let* t := u8_mul E d 10 in let* v := u8_add E t d2 in Ok (i', v))
    (Ok (i, d)) in
  if 31 <? d then Err (Unknown "day must be less than 31")
  else
    let* (i, _) := fws i in
    Ok (i, d).

(* parsing/time.rs:95-137 *)
Definition time_of_day (E : env) : parser time_t := fun i =>
  let* (i, hour) := two_digits E i in
  if 23 <? hour then Err (Unknown "There is only 24 hours in a day")
  else
    let* (i, _) := tag (bs ":") "TAG ERROR: In a time_of_day, the hour must be followed by a colon." i in
    let* (i, minute) := two_digits E i in
    if 59 <? minute then Err (Unknown "There is only 60 minutes per hour")
    else if starts_with i (bs ":") then
      let* new_input := index_from i 1 in
      attempt (two_digits E new_input)
        (fun '(new_input, second) =>
           if 60 <? second then Err (Unknown "There is only 60 seconds in a minute")
           else Ok (new_input, {| t_hour := hour; t_minute := minute; t_second := second |}))
        (Ok (i, {| t_hour := hour; t_minute := minute; t_second := 0 |}))
    else Ok (i, {| t_hour := hour; t_minute := minute; t_second := 0 |}).

(* parsing/time.rs:139-165 *)
Definition zone (E : env) : parser zone_t := fun i =>
  let* (i, _) := fws i in
  let* sign :=
    match i with
    | [] => Err (Unknown "Expected more characters in zone")
    | c :: _ => if c =? 43 then Ok true else if c =? 45 then Ok false
                else Err (Unknown "Invalid sign character in zone")
    end in
  let* i := index_from i 1 in
  let* (i, h) := two_digits E i in
  let* (i, m) := two_digits E i in
  if 59 <? m then Err (Unknown "zone minute_offset out of range")
  else Ok (i, {| z_sign := sign; z_hour_offset := h; z_minute_offset := m |}).

(* parsing/time.rs:167-171 *)
Definition time (E : env) : parser time_with_zone := fun i =>
  let* (i, t) := time_of_day E i in
  let* (i, z) := zone E i in
  Ok (i, {| tz_time := t; tz_zone := z |}).

(* parsing/time.rs:173-178 *)
Definition date (E : env) : parser date_t := fun i =>
  let* (i, d) := day E i in
  let* (i, m) := month i in
  let* (i, y) := year i in
  Ok (i, {| d_day := d; d_month := m; d_year := y |}).

(* parsing/time.rs:180-193 *)
Definition date_time (E : env) : parser date_time_t := fun i =>
  let* (i, d) := optional day_of_week i in
  let* (i, dd) := date E i in
  let* (i, t) := time E i in
  let* (i, _) := optional cfws i in
  Ok (i, {| dt_day_name := d; dt_date := dd; dt_time := t |}).

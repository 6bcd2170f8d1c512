(* parsing/character_sets.rs *)
From Verif Require Import Base.
Local Open Scope N_scope.

(* character_sets.rs:3-6 *)
Definition is_wsp (c : byte) : bool := (c =? 9) || (c =? 32).
(* character_sets.rs:8-13 *)
Definition is_ctext (c : byte) : bool :=
  ((33 <=? c) && (c <=? 39)) || ((42 <=? c) && (c <=? 91)) || ((93 <=? c) && (c <=? 126)).
(* character_sets.rs:15-18 *)
Definition is_vchar (c : byte) : bool := (33 <=? c) && (c <=? 126).
(* character_sets.rs:20-23 *)
Definition is_alpha (c : byte) : bool := ((65 <=? c) && (c <=? 90)) || ((97 <=? c) && (c <=? 122)).
(* character_sets.rs:25-28 *)
Definition is_digit (c : byte) : bool := (48 <=? c) && (c <=? 57).

(* character_sets.rs:30-44; the ten match arms on b'0'..b'9' are written as the
   range test and the subtraction of b'0'. *)
Definition digit : parser N := fun i =>
  match i with
  | c :: r => if is_digit c then Ok (r, c - 48) else Err (Unknown "Invalid digit")
  | [] => Err (Unknown "Invalid digit")
  end.

(* character_sets.rs:46-51 *)
Definition two_digits (E : env) : parser N := fun i =>
  let* (i, first) := digit i in
  let* (i, second) := digit i in
  let* t := u8_mul E first 10 in
  let* v := u8_add E t second in
  Ok (i, v).

(* character_sets.rs:53-56 *)
Definition is_dtext (c : byte) : bool := ((33 <=? c) && (c <=? 90)) || ((94 <=? c) && (c <=? 126)).

(* membership in a literal set of characters *)
Definition one_of (s : string) (c : byte) : bool := existsb (N.eqb c) (bs s).

(* character_sets.rs:58-81 *)
Definition is_atext (c : byte) : bool :=
  is_alpha c || is_digit c || one_of "!#$%&'*+-/=?^_`{|}~" c.

(* character_sets.rs:83-98 *)
Definition special (c : byte) : bool := one_of "()<>[]:;@\,." c || (c =? DQUOTE).

(* character_sets.rs:100-117 *)
Definition tspecial (c : byte) : bool := one_of "()<>[]:;@\,/?=" c || (c =? DQUOTE).

(* character_sets.rs:119-122 *)
Definition is_qtext (c : byte) : bool := ((35 <=? c) && (c <=? 126) && negb (c =? 92)) || (c =? 33).
(* character_sets.rs:124-127 *)
Definition is_ftext (c : byte) : bool := ((33 <=? c) && (c <=? 57)) || ((59 <=? c) && (c <=? 126)).
(* character_sets.rs:129-132 *)
Definition is_text (c : byte) : bool := (1 <=? c) && (c <=? 127) && negb (c =? 10) && negb (c =? 13).

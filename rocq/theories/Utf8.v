(* UTF-8 validity, as checked by Rust's std::str::from_utf8
   (Unicode Standard, Table 3-7: well-formed UTF-8 byte sequences). *)
From Verif Require Import Base.

Definition in_range (lo hi b : N) : bool := (lo <=? b)%N && (b <=? hi)%N.
Definition cont (b : N) : bool := in_range 128 191 b.

Fixpoint utf8_valid (l : bytes) : bool :=
  match l with
  | [] => true
  | b0 :: l1 =>
    if (b0 <? 128)%N then utf8_valid l1
    else match l1 with
    | [] => false
    | b1 :: l2 =>
      if in_range 194 223 b0 then cont b1 && utf8_valid l2
      else match l2 with
      | [] => false
      | b2 :: l3 =>
        if (b0 =? 224)%N then in_range 160 191 b1 && cont b2 && utf8_valid l3
        else if in_range 225 236 b0 || in_range 238 239 b0 then cont b1 && cont b2 && utf8_valid l3
        else if (b0 =? 237)%N then in_range 128 159 b1 && cont b2 && utf8_valid l3
        else match l3 with
        | [] => false
        | b3 :: l4 =>
          if (b0 =? 240)%N then in_range 144 191 b1 && cont b2 && cont b3 && utf8_valid l4
          else if in_range 241 243 b0 then cont b1 && cont b2 && cont b3 && utf8_valid l4
          else if (b0 =? 244)%N then in_range 128 143 b1 && cont b2 && cont b3 && utf8_valid l4
          else false
        end
      end
    end
  end.

(* std::str::from_utf8_unchecked (string.rs:8-10 from_slice, combinators.rs:94,99,
   122,127; percent_encoding.rs:33): building a str from invalid UTF-8 breaks
   str's safety invariant. *)
Definition str_unchecked (b : bytes) : res bytes :=
  if utf8_valid b then Ok b else Crash (Undefined "from_utf8_unchecked").

(* String::from_utf8(v).map_err(|_| e)? *)
Definition str_checked (b : bytes) (e : error) : res bytes :=
  if utf8_valid b then Ok b else Err e.

(* Specification for C51: how any multipart text is cut into parts. *)
From Verif Require Import Base Rfc5322 MultipartSpec.

(* i is p, then x, then r, and x does not occur earlier *)
Definition cut (x i p r : bytes) : Prop := i = p ++ x ++ r /\ forall p' r', i = p' ++ x ++ r' -> (length p <= length p')%nat.
(* cutting at the delimiters, from left to right, up to the last of them; at the start of the
   text and right after a delimiter, a delimiter may lack its first CRLF *)
Inductive sections (b : bytes) : bytes -> list bytes -> bytes -> Prop :=
| sections_start : forall r ps rest, sections b r ps rest -> sections b (dash_boundary b ++ CRLF ++ r) ([] :: ps) rest
| sections_next : forall i p r ps rest, (forall s, i <> dash_boundary b ++ CRLF ++ s) -> cut (delimiter b) i p r -> sections b r ps rest -> sections b i (p :: ps) rest
| sections_end : forall i, (forall s, i <> dash_boundary b ++ CRLF ++ s) -> ~ occurs (delimiter b) i -> sections b i [] i.
(* the rest ends at its first closing delimiter; what is before the first delimiter is no part *)
Inductive cut_parts (b : bytes) (i : bytes) (parts : list bytes) : Prop :=
| cut_parts_intro : forall ps rest last epilogue preamble, sections b i ps rest -> cut (closing_delimiter b) rest last epilogue ->
    ps ++ [last] = preamble :: parts -> cut_parts b i parts.
(* there is no closing delimiter after the last delimiter *)
Definition unclosed (b : bytes) (i : bytes) : Prop := exists ps rest, sections b i ps rest /\ ~ occurs (closing_delimiter b) rest.

(* parsing/combinators.rs *)
From Verif Require Import Base Utf8.

(* combinators.rs:4-16; the debug_assert on UTF-8 of the constant is dropped
   (every constant passed is ASCII). *)
Definition tag (expected : bytes) (msg : string) : parser unit := fun i =>
  if starts_with i expected then
    let* r := unchecked_from i (length expected) in Ok (r, tt)
  else Err (Explicit msg).

(* combinators.rs:29-37: the debug check that the two constants have opposite case *)
Fixpoint opposite_case (e1 e2 : bytes) : bool :=
  match e1, e2 with
  | [], _ => true
  | a :: e1', b :: e2' =>
    negb ((is_lower a && negb (to_upper a =? b)%N) || (is_upper a && negb (to_lower a =? b)%N))
    && opposite_case e1' e2'
  | _ :: _, [] => false
  end.

(* combinators.rs:45-53: the comparison loop, idx from 0 *)
Fixpoint tag_no_case_loop (n idx : nat) (i e1 e2 : bytes) (msg : string) : res unit :=
  match n with
  | 0 => Ok tt
  | S n' =>
    let* c := unchecked_get i idx in
    let* a := unchecked_get e1 idx in
    if negb (c =? a)%N then
      let* b := unchecked_get e2 idx in
      if negb (c =? b)%N then Err (Explicit msg)
      else tag_no_case_loop n' (S idx) i e1 e2 msg
    else tag_no_case_loop n' (S idx) i e1 e2 msg
  end.

(* combinators.rs:18-56 *)
Definition tag_no_case (E : env) (e1 e2 : bytes) (msg : string) : parser unit := fun i =>
  if debug E && negb (length e1 =? length e2) then Crash (Panic "debug_assert_eq")
  else if debug E && negb (opposite_case e1 e2) then
    Crash (Panic "tag_no_case() is supposed to take opposite characters")
  else if length i <? length e1 then
    Err (Unknown "Tag error, input is smaller than expected string")
  else
    let* _ := tag_no_case_loop (length e1) 0 i e1 e2 msg in
    let* r := unchecked_from i (length e1) in
    Ok (r, tt).

(* combinators.rs:58-68 *)
Definition optional {A} (p : parser A) (i : bytes) : res (bytes * option A) :=
  attempt (p i) (fun '(r, a) => Ok (r, Some a)) (Ok (i, None)).

(* combinators.rs:70-82 *)
Fixpoint match_parsers {A} (ps : list (parser A)) (i : bytes) : res (bytes * A) :=
  match ps with
  | [] => Err (Unknown "No match arm is matching the data")
  | p :: ps' => attempt (p i) (fun ra => Ok ra) (match_parsers ps' i)
  end.

(* the longest prefix satisfying [f], and the rest *)
Fixpoint span (f : byte -> bool) (i : bytes) : bytes * bytes :=
  match i with
  | [] => ([], [])
  | c :: r => if f c then let (a, b) := span f r in (c :: a, b) else ([], i)
  end.

(* combinators.rs:84-100; the index loop is the structural [span] *)
Definition take_while (f : byte -> bool) : parser bytes := fun i =>
  let (a, r) := span f i in
  let* s := str_unchecked a in Ok (r, s).

(* combinators.rs:102-128 *)
Definition take_while1 (f : byte -> bool) : parser bytes := fun i =>
  match i with
  | [] => Err (Unknown "Expected at least one character matching, but there is no character")
  | c :: _ =>
    if negb (f c) then Err (Unknown "Expected at least one character matching")
    else let (a, r) := span f i in let* s := str_unchecked a in Ok (r, s)
  end.

(* combinators.rs:130-140, 142-155: the while-let loop, with fuel *)
Fixpoint many_fuel {A} (n : nat) (p : parser A) (i : bytes) : res (bytes * list A) :=
  match n with
  | 0 => Crash OutOfFuel
  | S n' =>
    attempt (p i)
      (fun '(i', a) => let* (r, l) := many_fuel n' p i' in Ok (r, a :: l))
      (Ok (i, []))
  end.
Definition many {A} (p : parser A) (i : bytes) : res (bytes * list A) :=
  many_fuel (S (length i)) p i.

(* combinators.rs:130-140 *)
Definition ignore_many {A} (p : parser A) (i : bytes) : res (bytes * unit) :=
  let* (r, _) := many p i in Ok (r, tt).

(* combinators.rs:157-172 *)
Definition many1 {A} (p : parser A) (i : bytes) : res (bytes * list A) :=
  let* (i, a) := p i in
  let* (r, l) := many p i in
  Ok (r, a :: l).

(* combinators.rs:174-187; add_string is concatenation of contents (StringCow.v) *)
Definition collect_many (p : parser bytes) (i : bytes) : res (bytes * bytes) :=
  let* (r, l) := many p i in Ok (r, concat l).

(* combinators.rs:189-199 *)
Definition pair_p {A B} (p : parser A) (q : parser B) (i : bytes) : res (bytes * (A * B)) :=
  let* (i, a) := p i in
  let* (i, b) := q i in
  Ok (i, (a, b)).

(* combinators.rs:201-218 *)
Definition triplet {A B C} (p : parser A) (q : parser B) (s : parser C) (i : bytes) : res (bytes * (A * B * C)) :=
  let* (i, a) := p i in
  let* (i, b) := q i in
  let* (i, c) := s i in
  Ok (i, (a, b, c)).

(* combinators.rs:220-231 *)
Definition collect_pair (p q : parser bytes) (i : bytes) : res (bytes * bytes) :=
  let* (i, a) := p i in
  let* (i, b) := q i in
  Ok (i, a ++ b).

(* combinators.rs:233-248 *)
Definition prefixed {A} (p : parser A) (prefix : bytes) (i : bytes) : res (bytes * A) :=
  if starts_with i prefix then
    let* r := unchecked_from i (length prefix) in p r
  else Err (Unknown "Expected a prefix").

(* `p(i).map(|(i, v)| (i, f(v)))` *)
Definition pmap {A B} (f : A -> B) (p : parser A) : parser B := fun i =>
  let* (r, a) := p i in Ok (r, f a).

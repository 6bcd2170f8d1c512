(* string.rs: strings that are slices of memory or owned.
   A `&str` is an address and a length; `Cow<str>` is a `&str` or the contents of a `String`.
   Memory is a partial map from addresses to bytes. Simplified: addresses are unbounded
   naturals (`as_ptr().add(len)` stays inside or one past an allocation, so it does not wrap). *)
From Verif Require Import Base Utf8 CharSets Combinators.
Local Open Scope N_scope.

Definition mem := N -> option byte.
Inductive cow :=
| Borrowed (ptr : N) (len : nat)
| Owned (s : bytes).

(* the bytes of a slice; undefined behaviour outside of memory *)
Fixpoint read (m : mem) (p : N) (n : nat) : res bytes :=
  match n with
  | O => Ok []
  | S k =>
    match m p with
    | Some b => let* r := read m (p + 1) k in Ok (b :: r)
    | None => Crash (Undefined "read outside of memory")
    end
  end.
(* `Deref for Cow<str>` *)
Definition contents (m : mem) (c : cow) : res bytes :=
  match c with Borrowed p n => read m p n | Owned s => Ok s end.

(* string.rs:3-6; a slice of length 0 has some address, whatever it is *)
Definition empty_string (somewhere : N) : cow := Borrowed somewhere 0.
(* string.rs:8-11 *)
Definition from_slice (m : mem) (p : N) (n : nat) : res cow :=
  let* s := read m p n in
  let* _ := str_unchecked s in
  Ok (Borrowed p n).

(* string.rs:14-42. Result: the new value of *s1 *)
Definition add_string (m : mem) (s1 s2 : cow) : res cow :=
  match s1 with
  | Borrowed p1 n1 =>
    let fallback :=
      (* 36 *)
      let* a := contents m s1 in
      let* b := contents m s2 in
      Ok (Owned (a ++ b)) in
    match s2 with
    | Borrowed p2 n2 =>
      if Nat.eqb n2 0 then Ok s1                              (* 18-20 *)
      else if Nat.eqb n1 0 then Ok (Borrowed p2 n2)           (* 21-24 *)
      else if p1 + N.of_nat n1 =? p2 then from_slice m p1 (n1 + n2)   (* 26-34 *)
      else fallback
    | Owned _ => fallback
    end
  | Owned s =>
    (* 39 *)
    let* b := contents m s2 in
    Ok (Owned (s ++ b))
  end.

(* string.rs:44-70 *)
Definition add_str (m : mem) (s1 : cow) (p2 : N) (n2 : nat) : res cow :=
  match s1 with
  | Borrowed p1 n1 =>
    if Nat.eqb n2 0 then Ok s1                              (* 48-50 *)
    else if Nat.eqb n1 0 then Ok (Borrowed p2 n2)           (* 51-54 *)
    else if p1 + N.of_nat n1 =? p2 then from_slice m p1 (n1 + n2)   (* 56-63 *)
    else                                                    (* 64 *)
      let* a := contents m s1 in
      let* b := read m p2 n2 in
      Ok (Owned (a ++ b))
  | Owned s =>
    (* 67 *)
    let* b := read m p2 n2 in
    Ok (Owned (s ++ b))
  end.

(* combinators.rs:173-188 (collect_many): the results joined from left to right *)
Fixpoint join (m : mem) (acc : cow) (l : list cow) : res cow :=
  match l with
  | [] => Ok acc
  | c :: r => let* acc := add_string m acc c in join m acc r
  end.

(* Specification for C43: texts in memory. *)
From Verif Require Import Base Utf8 StringCow.
Local Open Scope N_scope.

(* the bytes v are at address p *)
Definition at_address (m : mem) (p : N) (v : bytes) : Prop := forall k b, nth_error v k = Some b -> m (p + N.of_nat k) = Some b.
(* c is the text v *)
Definition is_text (m : mem) (c : cow) (v : bytes) : Prop :=
  utf8_valid v = true /\
  match c with
  | Borrowed p n => length v = n /\ at_address m p v
  | Owned s => s = v
  end.
(* an allocation, from an address to another; a slice of it (an empty slice can be anywhere) *)
Definition slice_in (lo hi : N) (c : cow) : Prop :=
  match c with
  | Borrowed p n => n = O \/ lo <= p /\ p + N.of_nat n <= hi
  | Owned _ => True
  end.
(* slices one after the other from address p *)
Inductive consecutive : N -> list cow -> nat -> Prop :=
| consecutive_nil : forall p, consecutive p [] 0
| consecutive_cons : forall p n l k, consecutive (p + N.of_nat n) l k -> consecutive p (Borrowed p n :: l) (n + k).

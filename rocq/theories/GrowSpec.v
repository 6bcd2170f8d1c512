(* Specification for C65: how large the tree of the parts of a mail can be. *)
From Verif Require Import Base Time Address MimeFields Fields Entity TreeSpec.
Local Open Scope nat_scope.

(* the parts of a part, and those n levels below it *)
Definition children (E : env) (r : raw_entity_t) : list raw_entity_t := match entity E r with Ok (EMultipart _ es) => es | _ => [] end.
Fixpoint level (E : env) (n : nat) (r : raw_entity_t) : list raw_entity_t :=
  match n with
  | 0 => [r]
  | S n => concat (map (level E n) (children E r))
  end.
(* the bytes of their values *)
Definition value_bytes (l : list raw_entity_t) : nat := list_sum (map (fun r => length (e_value r)) l).
(* the bytes of the leaves of a tree of parts *)
Fixpoint leaf_bytes (t : tree) : nat :=
  match t with
  | Text _ v | Data _ _ v => length v
  | Parts _ l => list_sum (map leaf_bytes l)
  end.
(* what can be part of a header or of a delimiter *)
Definition ascii_bytes (l : bytes) : nat := length (filter (fun c => c <? 128)%N l).

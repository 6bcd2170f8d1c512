(* Specification for C70: the work of reading a mail with all its parts, where [m_entity] counts the
   operations of one call of RawEntity::parse (TimedMime.v). *)
From Verif Require Import Base MimeFields Fields Entity TimedMime GrowSpec UnencodedSpec.

(* RawEntity::parse is called on r and on all parts at most n levels below *)
Definition tree_work (E : env) (n : nat) (r : raw_entity_t) : nat := list_sum (map (fun x => snd (m_entity E x)) (r :: below E n r)).

(* what is read by one call: the value and the values of the parameters *)
Definition weight (r : raw_entity_t) : nat := S (length (e_value r) + list_sum (map (fun p => length (snd p)) (e_parameters r))).

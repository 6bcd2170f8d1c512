(* Specification for C64: how much text an email and its parts hold. *)
From Verif Require Import Base Time Address MimeFields Fields Entity Email EmailSpec TextSpec.

(* the bytes of some strings *)
Definition volume (l : list bytes) : nat := list_sum (map (@length byte) l).
(* everything in an email: the strings, and the body or the value of the message as a part *)
Definition part_contents (r : raw_entity_t) : list bytes := entity_texts r ++ entity_strings r ++ [e_value r].
Definition contents (e : email) : list bytes :=
  email_texts e ++ email_strings e ++ opt_list (body_of e) ++ match mime_entity e with Some r => [e_value r] | None => [] end.
(* the sender, which is a copy of the only author of a mail without a Sender header *)
Definition sender_contents (e : email) : list bytes := match sender e with Some m => mailbox_texts m ++ mailbox_strings m | None => [] end.
(* decoding a charset makes a text at most k times longer *)
Definition expands (k : nat) (E : env) : Prop := forall c v, length (textcode E c v) <= k * length v.

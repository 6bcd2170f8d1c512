(* Specification for C68: the tree of the parts of a mail in which, as RFC 2045 6.4 demands, no
   multipart has a transfer encoding that changes its text. *)
From Verif Require Import Base Time Address MimeFields Fields Entity MultipartSpec CutSpec GrowSpec.
Local Open Scope nat_scope.

(* the parts at most n levels below a part *)
Fixpoint below (E : env) (n : nat) (r : raw_entity_t) : list raw_entity_t :=
  match n with
  | 0 => []
  | S n => concat (map (fun x => x :: below E n x) (children E r))
  end.
(* a multipart that was read from text p is text of p *)
Definition kept (p : bytes) (e : raw_entity_t) : Prop := e_mime_type e = CMultipart -> exists h, p = h ++ e_value e.
(* no multipart below r is encoded *)
Definition unencoded (E : env) (r : raw_entity_t) : Prop := forall n x, In x (r :: below E n r) ->
  forall b ps p e, map_get (e_parameters x) (bs "boundary") = Some b -> cut_parts b (e_value x) ps -> In p ps -> raw_entity E p = Ok e -> kept p e.
Definition is_leaf (r : raw_entity_t) : bool := match e_mime_type r with CMultipart => false | _ => true end.

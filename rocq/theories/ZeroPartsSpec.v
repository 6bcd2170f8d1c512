(* Specification for C63: parts of a mail whose strings are slices or copies. *)
From Verif Require Import Base Entity Email StringCow StringSpec ZeroCopy ZeroSpec ZeroParts.

(* the bytes v as a slice, or as a copy that is itself in memory at h *)
Definition held (m : mem) (h : N) (c : cow) (v : bytes) : Prop := is_bytes m c v /\ match c with Owned _ => at_address m h v | Borrowed _ _ => True end.
(* two parsed entities of the same shape *)
Definition like_result (text fixed loose raw : cow -> bytes -> Prop) (a : z_entity_t) (b : entity_t) : Prop :=
  match a, b with
  | ZEMultipart s l, EMultipart s' l' => loose s s' /\ Forall2 (like_entity text fixed loose raw) l l'
  | ZEText s v, EText s' v' => loose s s' /\ text v v'
  | ZEUnknown, EUnknown => True
  | _, _ => False
  end.
(* y is x, or a part of x, or a part of a part and so on, and no entity on the way has been decoded into a copy *)
Inductive nested (m : mem) (l : literals) (E : env) : z_raw_entity_t -> z_raw_entity_t -> Prop :=
| nested_self : forall x, nested m l E x x
| nested_part : forall h x s parts y z, is_borrowed (zr_value x) -> z_entity m l h E x = Ok (ZEMultipart s parts) -> In y parts -> nested m l E y z -> nested m l E x z.
(* the last Content-Transfer-Encoding header *)
Definition last_encoding (hs : list entity_header) (e : MimeFields.encoding_t) : Prop := exists a b, hs = a ++ HEncoding e :: b /\ forall e', ~ In (HEncoding e') b.

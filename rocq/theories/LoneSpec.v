(* Specification for C75: carriage returns and line feeds that do not belong to a line end. *)
From Verif Require Import Base Rfc5322.
Local Open Scope N_scope.

(* every CR is followed by a LF, every LF is preceded by a CR *)
Definition paired (d : bytes) : Prop := (forall a b, d = a ++ 13 :: b -> exists b', b = 10 :: b') /\ (forall a b, d = a ++ 10 :: b -> exists a', a = a' ++ [13]).
(* the bytes of headers: printable characters, blanks, CR and LF *)
Definition header_byte (c : byte) : Prop := rfc_VCHAR c \/ rfc_WSP c \/ c = 13 \/ c = 10.
(* the byte c, between a and b, has no place in headers *)
Inductive misplaced (a : bytes) : byte -> bytes -> Prop :=
| lone_lf : forall b, (forall a', a <> a' ++ [13]) -> misplaced a 10 b
| lone_cr : forall b, (forall b', b <> 10 :: b') -> misplaced a 13 b
| foreign : forall c b, ~ header_byte c -> misplaced a c b.

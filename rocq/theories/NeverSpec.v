(* Specification for C74: mails that are made of header lines. *)
From Verif Require Import Base Rfc5322 EmailSpec LineSpec.
Local Open Scope N_scope.

(* nothing, or an empty line and a body in lines of at most 998 characters *)
Inductive body_part : bytes -> Prop :=
| no_body : body_part []
| some_body : forall b, body_text b -> body_part (CRLF ++ b).
(* a header with a name and a text in printable lines, none of which is blank *)
Definition good_line (x : line) : Prop := proper_line x /\ unblank (snd x).
(* two headers have the name n *)
Definition repeated (n : string) (ls : list line) : Prop := exists a x b y c, ls = a ++ x :: b ++ y :: c /\ same_nocase (fst x) (bs n) /\ same_nocase (fst y) (bs n).
(* the headers whose parser can stop at a fold in the middle of the header, see C53 *)
Definition stopping : list string := ["MIME-Version"; "Content-Type"; "Content-Transfer-Encoding"; "Content-Disposition"; "Keywords"]%string.
Definition named_in (l : list string) (x : line) : Prop := exists name, In name l /\ same_nocase (fst x) (bs name).
(* such a header is in one line *)
Definition not_stopped (x : line) : Prop := named_in stopping x -> forall a b, snd x <> a ++ CRLF ++ b.
(* the first header is none of a trace block *)
Definition untraced_start (ls : list line) : Prop := match ls with [] => True | x :: _ => ~ trace_line x end.

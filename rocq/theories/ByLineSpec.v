(* Specification for C76: the headers of a mail in lines that are kept as they are. *)
From Verif Require Import Base Fields Rfc5322 RfcFields Complete CompleteFields EmailSpec LineSpec MimeExactSpec.
Local Open Scope N_scope.

(* the lines that are no header of the grammar of their name, in their order, with their texts unfolded *)
Inductive left_over (E : env) : list line -> list (bytes * bytes) -> Prop :=
| left_nil : left_over E [] []
| left_known : forall x ls u f, clear_field E (line_text x) f -> (forall n v, f <> FUnknown n v) -> left_over E ls u -> left_over E (x :: ls) u
| left_kept : forall x ls u v, (forall f, clear_field E (line_text x) f -> exists n v, f = FUnknown n v) -> rfc_unstructured (snd x) v -> left_over E ls u -> left_over E (x :: ls) ((fst x, v) :: u).
(* the same with mime: the grammar is that of C53, and texts may have encoded words *)
Inductive mime_left_over (E : env) : list line -> list (bytes * bytes) -> Prop :=
| mime_left_nil : mime_left_over E [] []
| mime_left_known : forall x ls u f, mime_field E (line_text x) f -> (forall n v, f <> FUnknown n v) -> mime_left_over E ls u -> mime_left_over E (x :: ls) u
| mime_left_kept : forall x ls u v, (forall f, mime_field E (line_text x) f -> exists n v, f = FUnknown n v) -> clear_text_value (f_unrecognized_headers E) (textcode E) (snd x) v ->
    mime_left_over E ls u -> mime_left_over E (x :: ls) ((fst x, v) :: u).

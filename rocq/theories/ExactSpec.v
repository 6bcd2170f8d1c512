(* Specification for C52: the texts of whole messages, for the builds without the mime feature. *)
From Verif Require Import Base Time Address Fields Rfc5322 RfcFields Complete CompleteFields LineSpec EmailSpec.
Local Open Scope N_scope.

(* a header outside of the trace blocks: one of the grammar of its name; or, if it is no such
   header, an unknown one, provided that its value is unstructured text *)
Inductive field_read (E : env) : bytes -> field -> Prop :=
| read_clear : forall c f, clear_field E c f -> field_read E c f
| read_unstructured : forall n t v, chars1 rfc_ftext n -> rfc_unstructured t v -> (forall f, ~ clear_field E (n ++ bs ":" ++ t ++ CRLF) f) ->
    field_read E (n ++ bs ":" ++ t ++ CRLF) (FUnknown n v).

(* a text starts with such headers, which no line continues *)
Definition begins {A} (P : bytes -> A -> Prop) (i : bytes) : Prop := exists c a r, P c a /\ i = c ++ r /\ new_line r.
(* how a trace block starts: Received, or Return-Path and Received *)
Inductive block_start (E : env) : bytes -> option (option email_address) * (list received_token * date_time_t) -> Prop :=
| block_start_intro : forall c1 p c2 v, clear_return (f_compatibility_fixes E) c1 p ->
    rfc_header "Received" (tidily (clear_received (f_compatibility_fixes E))) c2 v -> block_start E (c1 ++ c2) (p, v).

(* a message: as many trace blocks as possible, each of them as long as possible; then the other
   headers; then the end, or an empty line and a body *)
Inductive message_read (E : env) : bytes -> list field -> option bytes -> Prop :=
| message_read_intro : forall c1 t c2 l c3 b, clear_blocks E c1 t -> (f_trace E = false -> t = []) ->
    (f_trace E = true -> ~ begins (block_start E) (c2 ++ c3)) ->
    (t <> [] -> ~ begins (clear_resent (f_mime E) (f_compatibility_fixes E) (encoded E)) (c2 ++ c3)) ->
    many_of (field_read E) c2 l -> rest_text c3 b -> (forall x, b = Some x -> body_text x) ->
    message_read E (c1 ++ c2 ++ c3) (t ++ l) b.

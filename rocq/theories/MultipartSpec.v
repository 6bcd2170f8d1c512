(* Specification of multipart bodies: RFC 2046 5.1.1. *)
From Verif Require Import Base Rfc5322.
Local Open Scope N_scope.

(* dash-boundary = "--" boundary; a delimiter line is CRLF dash-boundary CRLF, the closing one
   CRLF dash-boundary "--" CRLF *)
Definition dash_boundary (b : bytes) : bytes := bs "--" ++ b.
Definition delimiter (b : bytes) : bytes := CRLF ++ dash_boundary b ++ CRLF.
Definition closing_delimiter (b : bytes) : bytes := CRLF ++ dash_boundary b ++ bs "--" ++ CRLF.

Definition occurs (x l : bytes) : Prop := exists p s, l = p ++ x ++ s.
(* no line starts with the dash-boundary (the text being preceded by a line break) *)
Definition clean (b p : bytes) : Prop := ~ occurs (CRLF ++ dash_boundary b) (CRLF ++ p).

(* the text of a multipart body; without preamble, the first delimiter may lack its CRLF *)
Definition parts_text (b : bytes) (parts : list bytes) : bytes := concat (map (fun p => delimiter b ++ p) parts).
Inductive multipart_text (b : bytes) (parts : list bytes) : bytes -> Prop :=
| multipart_preamble : forall pre epi, clean b pre -> ~ occurs (delimiter b) (CRLF ++ epi) ->
    multipart_text b parts (pre ++ parts_text b parts ++ closing_delimiter b ++ epi)
| multipart_start : forall p rest epi, parts = p :: rest -> ~ occurs (delimiter b) (CRLF ++ epi) ->
    multipart_text b parts (dash_boundary b ++ CRLF ++ p ++ parts_text b rest ++ closing_delimiter b ++ epi).

(* Specification for C66: the headers of RFC 2045 and RFC 2183 as sequences of lexical tokens. As
   RFC 822 3.1.4 says, there may be any comments and white space between any two of them. *)
From Verif Require Import Base Percent MimeFields Rfc5322 RfcFields.
Local Open Scope N_scope.

(* linear white space, folded any number of times, and comments *)
Inductive filler : bytes -> Prop :=
| filler_none : filler []
| filler_blank : forall x t, rfc_WSP x -> filler t -> filler (x :: t)
| filler_fold : forall x t, rfc_WSP x -> filler t -> filler (CRLF ++ x :: t)
| filler_comment : forall c t, rfc_comment c -> filler t -> filler (c ++ t).

Inductive lexeme : Type :=
| LToken (c : bytes)
| LQuoted (v : bytes)
| LSpecial (x : byte).
(* a token ends where no character of tokens follows *)
Definition token_ends (t : bytes) : Prop := match t with x :: _ => ~ mime_token_char x | [] => True end.
Inductive lexes : bytes -> list lexeme -> Prop :=
| lexes_end : forall w, filler w -> lexes w []
| lexes_token : forall w c t l, filler w -> mime_token c -> token_ends t -> lexes t l -> lexes (w ++ c ++ t) (LToken c :: l)
| lexes_quoted : forall w b v t l, filler w -> rfc_qbody b v -> lexes t l -> lexes (w ++ [34] ++ b ++ [34] ++ t) (LQuoted v :: l)
| lexes_special : forall w x t l, filler w -> In x (bs "/;=") -> lexes t l -> lexes (w ++ x :: t) (LSpecial x :: l).

(* RFC 2045 5.1: parameter := attribute "=" value; value := token / quoted-string *)
Inductive lexeme_value : lexeme -> bytes -> Prop :=
| lexeme_token : forall c, lexeme_value (LToken c) c
| lexeme_quoted : forall v, lexeme_value (LQuoted v) v.
Inductive rfc_parameters : list lexeme -> list (bytes * bytes) -> Prop :=
| parameters_none : rfc_parameters [] []
| parameters_more : forall a x v l ps, lexeme_value x v -> rfc_parameters l ps ->
    rfc_parameters (LSpecial 59 :: LToken a :: LSpecial 61 :: x :: l) ((a, v) :: ps).

(* the contents of the headers: type "/" subtype *(";" parameter), disposition *(";" parameter), a
   mechanism, and 1*DIGIT "." 1*DIGIT *)
Definition rfc2045_type (t : bytes) (c s : bytes) (ps : list (bytes * bytes)) : Prop :=
  exists l, lexes t (LToken c :: LSpecial 47 :: LToken s :: l) /\ rfc_parameters l ps.
Definition rfc2183_disposition (t : bytes) (c : bytes) (ps : list (bytes * bytes)) : Prop :=
  exists l, lexes t (LToken c :: l) /\ rfc_parameters l ps.
Definition rfc2045_mechanism (t : bytes) (c : bytes) : Prop := lexes t [LToken c].
Inductive rfc2045_version : bytes -> N * N -> Prop :=
| rfc2045_version_intro : forall w1 c1 w2 w3 c2 w4, filler w1 -> chars1 rfc_DIGIT c1 -> filler w2 -> filler w3 -> chars1 rfc_DIGIT c2 -> filler w4 ->
    rfc2045_version (w1 ++ c1 ++ w2 ++ [46] ++ w3 ++ c2 ++ w4) (number c1, number c2).

(* the value of an attribute, written in any case; the last one counts *)
Definition attribute (ps : list (bytes * bytes)) (a : bytes) : option bytes :=
  last_some (fun '(b, v) => if bytes_eqb a (map fold_case b) then Some v else None) ps.
(* without the extensions of RFC 2231, whose names contain an asterisk *)
Definition no_extension (ps : list (bytes * bytes)) : Prop := Forall (fun p => ~ In 42 (fst p)) ps.
(* RFC 2183 2: the parameters that are returned on their own *)
Definition disposition_dates : list bytes := [bs "creation-date"; bs "modification-date"; bs "read-date"].

(* contents without white space around "/" and "=", and with at most one comment at the end, in
   which the type, disposition or mechanism c does not start with a longer known one *)
Inductive compact_parameters : bytes -> list (bytes * bytes) -> Prop :=
| compact_none : compact_parameters [] []
| compact_token : forall w w' a v t ps, rfc_oCFWS w -> rfc_oCFWS w' -> mime_token a -> mime_token v -> compact_parameters t ps ->
    compact_parameters (w ++ bs ";" ++ w' ++ a ++ bs "=" ++ v ++ t) ((a, v) :: ps)
| compact_quoted : forall w w' a b v t ps, rfc_oCFWS w -> rfc_oCFWS w' -> mime_token a -> rfc_qbody b v -> compact_parameters t ps ->
    compact_parameters (w ++ bs ";" ++ w' ++ a ++ bs "=" ++ [34] ++ b ++ [34] ++ t) ((a, v) :: ps).
Definition no_longer {A} (table : list (bytes * A)) (c : bytes) : Prop :=
  forall n a x y, In (n, a) table -> c = x ++ y -> same_nocase x n -> y = [].
Inductive compact_type : bytes -> bytes -> bytes -> list (bytes * bytes) -> Prop :=
| compact_type_intro : forall w c s t ps x, rfc_oCFWS w -> mime_token c -> no_longer mime_types c -> mime_token s -> compact_parameters t ps -> inline_cfws x ->
    compact_type (w ++ c ++ bs "/" ++ s ++ t ++ x) c s ps.
Inductive compact_mechanism : bytes -> bytes -> Prop :=
| compact_mechanism_intro : forall w c x, rfc_oCFWS w -> mime_token c -> no_longer mime_encodings c -> inline_cfws x -> compact_mechanism (w ++ c ++ x) c.

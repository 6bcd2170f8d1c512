(* Specification for C71: dates that are not read. *)
From Verif Require Import Base Time Rfc5322.
Local Open Scope N_scope.

(* a number of at least four digits, from 1990 on *)
Definition recent_year (y : bytes) : Prop := (4 <= length y)%nat /\ chars rfc_DIGIT y /\ 1990 <= number y.
(* texts separated by blanks (also those of folds), none of which is a recent year *)
Definition blank (c : byte) : Prop := rfc_WSP c \/ c = 13 \/ c = 10.
Definition other_word (x : bytes) : Prop := Forall (fun c => ~ blank c) x /\ ~ recent_year x.
Inductive yearless : bytes -> Prop :=
| yearless_last : forall x, other_word x -> yearless x
| yearless_more : forall x w t, other_word x -> blank w -> yearless t -> yearless (x ++ [w] ++ t).
(* no sign of a numeric zone *)
Definition unsigned (c : bytes) : Prop := ~ In 43 c /\ ~ In 45 c.
Definition undated (c : bytes) : Prop := unsigned c \/ yearless c.

(* RFC 5322 4.3: the zone has a name, such as GMT, EST or Z *)
Inductive named_zone : bytes -> Prop :=
| named_zone_intro : forall c0 n c1 d c2 t w v z, rfc_day_of_week c0 n -> rfc_date c1 d -> rfc_time_of_day c2 t -> rfc_FWS w v -> chars1 rfc_ALPHA z ->
    named_zone (c0 ++ c1 ++ c2 ++ w ++ z).
(* a date that is well-formed but for a year of less than four digits or before 1990; one blank
   before each word *)
Inductive early_year : bytes -> Prop :=
| early_year_intro : forall names d dv m mv y t tv (s : bool) zh h zm mi,
    names = [] \/ (exists n day, rfc_name rfc_day_names n day /\ names = [n ++ bs ","]) -> rfc_digits 1 2 d dv -> rfc_name rfc_month_names m mv ->
    chars1 rfc_DIGIT y -> (length y < 4)%nat \/ number y < 1990 -> rfc_time_of_day t tv -> rfc_digits 2 2 zh h -> rfc_digits 2 2 zm mi ->
    early_year (concat (map (fun x => bs " " ++ x) (names ++ [d; m; y; t; bs (if s then "+" else "-") ++ zh ++ zm]))).

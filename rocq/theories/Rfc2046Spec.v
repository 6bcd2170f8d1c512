(* Specification for C67: multipart bodies as RFC 2046 5.1.1 defines them, with transport padding
   after the delimiters, and with or without a line end after the last of them. *)
From Verif Require Import Base Rfc5322 MultipartSpec.

(* delimiter := CRLF "--" boundary *)
Definition line_delimiter (b : bytes) : bytes := CRLF ++ dash_boundary b.
(* encapsulation := delimiter transport-padding CRLF body-part, from the padding and the part *)
Definition encapsulation (b : bytes) (x : bytes * bytes) : bytes := line_delimiter b ++ fst x ++ CRLF ++ snd x.
Definition encapsulations (b : bytes) (l : list (bytes * bytes)) : bytes := concat (map (encapsulation b) l).
(* close-delimiter transport-padding [CRLF epilogue] *)
Inductive body_end (b : bytes) : bytes -> option bytes -> bytes -> Prop :=
| body_end_here : forall w, chars rfc_WSP w -> body_end b w None (line_delimiter b ++ bs "--" ++ w)
| body_end_epilogue : forall w epi, chars rfc_WSP w -> clean b epi -> body_end b w (Some epi) (line_delimiter b ++ bs "--" ++ w ++ CRLF ++ epi).
(* the parts l with their paddings, then padding w and epilogue e; no line of a part, of the
   preamble or of the epilogue starts like a delimiter *)
Inductive rfc2046_body (b : bytes) : list (bytes * bytes) -> bytes -> option bytes -> bytes -> Prop :=
| body_preamble : forall pre l w e t, clean b pre -> Forall (fun x => chars rfc_WSP (fst x) /\ clean b (snd x)) l -> l <> [] -> body_end b w e t ->
    rfc2046_body b l w e (pre ++ encapsulations b l ++ t)
| body_start : forall w1 p l w e t, Forall (fun x => chars rfc_WSP (fst x) /\ clean b (snd x)) ((w1, p) :: l) -> body_end b w e t ->
    rfc2046_body b ((w1, p) :: l) w e (dash_boundary b ++ w1 ++ CRLF ++ p ++ encapsulations b l ++ t).

(* what becomes of such parts if a delimiter with padding is taken for text: it and the part after
   it are added to the text before it. The first component is the text before the first part. *)
Fixpoint merged (b : bytes) (l : list (bytes * bytes)) : bytes * list bytes :=
  match l with
  | [] => ([], [])
  | (w, p) :: l =>
    let (t, ps) := merged b l in
    match w with
    | [] => ([], (p ++ t) :: ps)
    | _ :: _ => (encapsulation b (w, p) ++ t, ps)
    end
  end.

(* The conversions of errors to messages and of bytes to emails, and the kinds of types. *)
From Verif Require Import Base MimeFields Fields Email.

(* error.rs:9-20, impl Display for Error *)
Definition display (e : error) : string :=
  match e with
  | Unknown message => message
  | Explicit message => message
  | DuplicateHeader name => "There are too many " ++ name ++ " headers in this mail."
  | MissingHeader name => "A valid " ++ name ++ " header is required."
  end.
(* email.rs:390-396, impl TryFrom<&[u8]> for Email *)
Definition try_from (E : env) (value : bytes) : res email := parse E value.
(* mime.rs:152-166, ContentType::is_composite_type *)
Definition is_composite_type (t : content_type_t) : bool :=
  match t with
  | CMessage => true
  | CMultipart => true
  | CText => false
  | CImage => false
  | CAudio => false
  | CVideo => false
  | CApplication => false
  | CUnknown _ => false
  end.

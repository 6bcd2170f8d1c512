(* mime.rs:5-50, parsing/mime/entity.rs and parsing/mime/multipart.rs *)
From Verif Require Import Base Utf8 CharSets Combinators Base64 QuotedPrintable Charset MimeFields Fields.

(* mime.rs:5-21 *)
Record raw_entity_t := {
  e_mime_type : content_type_t;
  e_subtype : bytes;
  e_description : option bytes;
  e_id : option (bytes * bytes);
  e_parameters : list (bytes * bytes);
  e_disposition : option disposition_t;
  e_value : bytes;
  e_additional_headers : list (bytes * bytes)
}.

(* mime.rs:32-50 *)
Inductive entity_t :=
| EMultipart (subtype : bytes) (content : list raw_entity_t)
| EText (subtype : bytes) (value : bytes)
| EUnknown.

(* entity.rs:236-254 *)
Definition decode_value (E : env) (value : bytes) (enc : encoding_t) : res bytes :=
  match enc with
  | Base64Enc => decode_base64 E value
  | SevenBit => Ok value
  | HeightBit => Ok value
  | QuotedPrintableEnc => decode_qp E value
  | UnknownEnc _ => Err (Unknown "Unknown format")
  | Binary => Ok value
  end.

(* one header of an entity, entity.rs:158-188 *)
Inductive entity_header :=
| HEncoding (e : encoding_t)
| HType (t : content_type_t) (subtype : bytes) (parameters : list (bytes * bytes))
| HId (id : bytes * bytes)
| HDescription (d : bytes)
| HDisposition (d : disposition_t)
| HOther (name value : bytes).

(* entity.rs:159-186: the order of the attempts; entity.rs is compiled only with
   mime, hence (see [env]) with content-disposition *)
Definition entity_header_parser (E : env) : parser entity_header :=
  match_parsers
    [ pmap HEncoding (content_transfer_encoding E);
      pmap (fun '(t, s, p) => HType t s p) (content_type E);
      pmap HId (content_id E);
      pmap HDescription (content_description E);
      pmap HDisposition (content_disposition E);
      pmap (fun '(n, v) => HOther n v) (unknown E) ].

(* entity.rs:151-156: the accumulators of the loop *)
Record header_acc := {
  h_encoding : option encoding_t;
  h_type : option (content_type_t * bytes * list (bytes * bytes));
  h_id : option (bytes * bytes);
  h_description : option bytes;
  h_disposition : option disposition_t;
  h_additional : list (bytes * bytes)
}.
Definition header_acc0 : header_acc :=
  {| h_encoding := None; h_type := None; h_id := None; h_description := None;
     h_disposition := None; h_additional := [] |}.

(* entity.rs:159-184: a later header of the same kind overwrites *)
Definition set_header (a : header_acc) (h : entity_header) : header_acc :=
  match h with
  | HEncoding e => {| h_encoding := Some e; h_type := h_type a; h_id := h_id a;
      h_description := h_description a; h_disposition := h_disposition a; h_additional := h_additional a |}
  | HType t s p => {| h_encoding := h_encoding a; h_type := Some (t, s, p); h_id := h_id a;
      h_description := h_description a; h_disposition := h_disposition a; h_additional := h_additional a |}
  | HId i => {| h_encoding := h_encoding a; h_type := h_type a; h_id := Some i;
      h_description := h_description a; h_disposition := h_disposition a; h_additional := h_additional a |}
  | HDescription d => {| h_encoding := h_encoding a; h_type := h_type a; h_id := h_id a;
      h_description := Some d; h_disposition := h_disposition a; h_additional := h_additional a |}
  | HDisposition d => {| h_encoding := h_encoding a; h_type := h_type a; h_id := h_id a;
      h_description := h_description a; h_disposition := Some d; h_additional := h_additional a |}
  | HOther n v => {| h_encoding := h_encoding a; h_type := h_type a; h_id := h_id a;
      h_description := h_description a; h_disposition := h_disposition a;
      h_additional := h_additional a ++ [(n, v)] |}
  end.

(* entity.rs:191-197, email.rs:325-331 *)
Definition default_content_type : content_type_t * bytes * list (bytes * bytes) :=
  (CText, bs "plain", [(bs "charset", bs "us-ascii")]).

(* entity.rs:133-234: the length of the remaining input and the headers *)
Definition header_part (E : env) (i : bytes) : res (nat * header_acc) :=
  let* (i, hs) := many (entity_header_parser E) i in
  let a := fold_left set_header hs header_acc0 in
  match i with
  | [] => Ok (0, a)
  | _ :: _ =>
    let* (i, _) := tag CRLF "TAG ERROR: A MIME entity header part must be followed by a CRLF sequence." i in
    Ok (length i, a)
  end.

(* entity.rs:7-41. The Borrowed arm (18-22) slices and the Owned arm (23-27) drains:
   both keep the last [len] bytes. header_part_owned (94-131) copies header_part's
   result. *)
Definition raw_entity (E : env) (i : bytes) : res raw_entity_t :=
  let* (len, a) := header_part E i in
  let* n := usize_sub (length i) len in
  let* v := index_from i n in
  let enc := match h_encoding a with Some e => e | None => SevenBit end in
  let '(t, s, p) := match h_type a with Some x => x | None => default_content_type end in
  let* value := decode_value E v enc in
  Ok {| e_mime_type := t; e_subtype := s; e_description := h_description a; e_id := h_id a;
        e_parameters := p; e_disposition := h_disposition a; e_value := value;
        e_additional_headers := h_additional a |}.

(* multipart.rs:17-25: for idx in 0..len, look for \r\n--boundary\r\n *)
Fixpoint find_boundary (n idx : nat) (i boundary : bytes) : option nat :=
  match n with
  | 0 => None
  | S n' =>
    if slice_is i idx (idx + 4) (CRLF ++ bs "--")
       && slice_is i (idx + 4) (idx + 4 + length boundary) boundary
       && slice_is i (idx + 4 + length boundary) (idx + (2 + 2 + length boundary + 2)) CRLF
    then Some idx
    else find_boundary n' (S idx) i boundary
  end.

(* multipart.rs:5-28 *)
Definition before_boundary_idx (i boundary : bytes) : res (nat * nat) :=
  let full := 2 + 2 + length boundary + 2 in
  if (full - 2 <=? length i)
     && slice_is i 0 2 (bs "--")
     && slice_is i 2 (2 + length boundary) boundary
     && slice_is i (2 + length boundary) (full - 2) CRLF
  then Ok (0, full - 2)
  else match find_boundary (length i) 0 i boundary with
       | Some idx => Ok (idx, full)
       | None => Err (Unknown "boundary not found")
       end.

(* multipart.rs:30-44 *)
Definition before_boundary (boundary : bytes) : parser bytes := fun i =>
  let* (before, len) := before_boundary_idx i boundary in
  let* r := unchecked_from i (before + len) in
  let* p := unchecked_to i before in
  Ok (r, p).

(* multipart.rs:46-59 *)
Fixpoint find_closing (n idx : nat) (i boundary : bytes) : option nat :=
  match n with
  | 0 => None
  | S n' =>
    if slice_is i idx (idx + 4) (CRLF ++ bs "--")
       && slice_is i (idx + 4) (idx + 4 + length boundary) boundary
       && slice_is i (idx + 4 + length boundary) (idx + (2 + 2 + length boundary + 2 + 2)) (bs "--" ++ CRLF)
    then Some idx
    else find_closing n' (S idx) i boundary
  end.

(* multipart.rs:46-75 *)
Definition before_closing_boundary (boundary : bytes) : parser bytes := fun i =>
  let* idx := ok_or (find_closing (length i) 0 i boundary) (Unknown "closing boundary not found") in
  let* r := unchecked_from i (idx + (2 + 2 + length boundary + 2 + 2)) in
  let* p := unchecked_to i idx in
  Ok (r, p).

(* multipart.rs:89-92: for part in parts { push(raw_entity(part)?) } *)
Fixpoint raw_entities (E : env) (parts : list bytes) : res (list raw_entity_t) :=
  match parts with
  | [] => Ok []
  | p :: ps =>
    let* e := raw_entity E p in
    let* es := raw_entities E ps in
    Ok (e :: es)
  end.

(* multipart.rs:77-95 *)
Definition parse_multipart (E : env) (i : bytes) (parameters : list (bytes * bytes)) : res (list raw_entity_t) :=
  let* boundary := ok_or (map_get parameters (bs "boundary")) (Unknown "Missing boundary parameter") in
  let* (i, parts) := many (before_boundary boundary) i in
  let* (_, last_part) := before_closing_boundary boundary i in
  let* (_, parts) := vec_remove (parts ++ [last_part]) 0 in
  raw_entities E parts.

(* entity.rs:43-92 (RawEntity::parse, mime.rs:27-29). `charset.to_lowercase()` (57) is
   Unicode lowercasing; the only non-ASCII characters whose lowercase contains ASCII
   are U+212A (k) and U+0130 (i followed by U+0307), and no table entry contains a
   `k` or U+0307, so for the comparison it equals ASCII lowercasing. *)
Definition entity (E : env) (r : raw_entity_t) : res entity_t :=
  match e_mime_type r with
  | CMultipart =>
    let* content := parse_multipart E (e_value r) (e_parameters r) in
    Ok (EMultipart (e_subtype r) content)
  | CText =>
    match map_get (e_parameters r) (bs "charset") with
    | Some charset =>
      match find_charset (lowercase charset) with
      | Some k => let* v := decode_charset E k (e_value r) in Ok (EText (e_subtype r) v)
      | None => Ok EUnknown
      end
    | None => Ok EUnknown
    end
  | _ => Ok EUnknown
  end.

(* parsing/mime/entity.rs and parsing/mime/multipart.rs once more, with the strings and values as
   `Cow`, as in ZeroCopy.v. A value is a slice of memory or a Vec<u8>; the bytes of a Vec<u8> are in
   memory too, at an address [heap] given where one is parsed. *)
From Verif Require Import Base Utf8 CharSets Combinators StringCow Charset Common Time Percent MimeFields Fields Message Entity Email ZeroCopy.

(* one header of an entity, entity.rs:158-188 *)
Inductive z_entity_header :=
| ZHEncoding (e : encoding_t)
| ZHType (t : z_content_type_t) (subtype : cow) (parameters : z_map cow)
| ZHId (id : cow * cow)
| ZHDescription (d : cow)
| ZHDisposition (d : z_disposition_t)
| ZHOther (name : str_slice) (value : cow).
(* entity.rs:159-186 *)
Definition z_entity_header_parser (M : place) (E : env) : parser z_entity_header :=
  match_parsers
    [ pmap ZHEncoding (content_transfer_encoding E);
      pmap (fun '(t, s, p) => ZHType t s p) (z_content_type M E);
      pmap ZHId (z_content_id M E);
      pmap ZHDescription (z_content_description M E);
      pmap ZHDisposition (z_content_disposition M E);
      pmap (fun '(n, v) => ZHOther n v) (z_unknown M E) ].

(* entity.rs:151-156 *)
Record z_header_acc := {
  zh_encoding : option encoding_t;
  zh_type : option (z_content_type_t * cow * z_map cow);
  zh_id : option (cow * cow);
  zh_description : option cow;
  zh_disposition : option z_disposition_t;
  zh_additional : list (cow * cow)
}.
Definition z_header_acc0 : z_header_acc :=
  {| zh_encoding := None; zh_type := None; zh_id := None; zh_description := None; zh_disposition := None; zh_additional := [] |}.
(* entity.rs:159-184 *)
Definition z_set_header (a : z_header_acc) (h : z_entity_header) : z_header_acc :=
  match h with
  | ZHEncoding e => {| zh_encoding := Some e; zh_type := zh_type a; zh_id := zh_id a;
      zh_description := zh_description a; zh_disposition := zh_disposition a; zh_additional := zh_additional a |}
  | ZHType t s p => {| zh_encoding := zh_encoding a; zh_type := Some (t, s, p); zh_id := zh_id a;
      zh_description := zh_description a; zh_disposition := zh_disposition a; zh_additional := zh_additional a |}
  | ZHId i => {| zh_encoding := zh_encoding a; zh_type := zh_type a; zh_id := Some i;
      zh_description := zh_description a; zh_disposition := zh_disposition a; zh_additional := zh_additional a |}
  | ZHDescription d => {| zh_encoding := zh_encoding a; zh_type := zh_type a; zh_id := zh_id a;
      zh_description := Some d; zh_disposition := zh_disposition a; zh_additional := zh_additional a |}
  | ZHDisposition d => {| zh_encoding := zh_encoding a; zh_type := zh_type a; zh_id := zh_id a;
      zh_description := zh_description a; zh_disposition := Some d; zh_additional := zh_additional a |}
  | ZHOther n v => {| zh_encoding := zh_encoding a; zh_type := zh_type a; zh_id := zh_id a;
      zh_description := zh_description a; zh_disposition := zh_disposition a;
      zh_additional := zh_additional a ++ [(borrow n, v)] |}
  end.
(* entity.rs:133-234; the content type may be missing, z_raw_entity puts the default (191-197) *)
Definition z_header_part (M : place) (E : env) (i : bytes) : res (nat * z_header_acc) :=
  let* (i, hs) := many (z_entity_header_parser M E) i in
  let a := fold_left z_set_header hs z_header_acc0 in
  match i with
  | [] => Ok (0, a)
  | _ :: _ =>
    let* (i, _) := tag CRLF "TAG ERROR: A MIME entity header part must be followed by a CRLF sequence." i in
    Ok (length i, a)
  end.

(* -- header_part_owned -- *)
(* `Cow::Owned(c.into_owned())` *)
Definition into_owned (m : mem) (c : cow) : res cow := let* v := contents m c in Ok (Owned v).
Definition own_option {A} (f : A -> res A) (o : option A) : res (option A) :=
  match o with Some a => let* a := f a in Ok (Some a) | None => Ok None end.
Fixpoint own_list {A} (f : A -> res A) (l : list A) : res (list A) :=
  match l with [] => Ok [] | a :: l => let* a := f a in let* l := own_list f l in Ok (a :: l) end.
Definition own_pair (m : mem) (x : cow * cow) : res (cow * cow) :=
  let* a := into_owned m (fst x) in let* b := into_owned m (snd x) in Ok (a, b).
(* mime.rs:64-83 *)
Definition own_type (m : mem) (t : z_content_type_t) : res z_content_type_t :=
  match t with ZOther c => let* c := into_owned m c in Ok (ZOther c) | ZKnown t => Ok (ZKnown t) end.
(* mime.rs:100-116 *)
Definition own_disposition_type (m : mem) (t : z_disposition_type_t) : res z_disposition_type_t :=
  match t with ZDUnknown c => let* c := into_owned m c in Ok (ZDUnknown c) | t => Ok t end.
(* entity.rs:119-121: the bytes of a key stay the same *)
Definition own_entry (m : mem) (x : bytes * (cow * cow)) : res (bytes * (cow * cow)) :=
  let* y := own_pair m (snd x) in Ok (fst x, y).
(* mime.rs:131-151 *)
Definition own_disposition (m : mem) (d : z_disposition_t) : res z_disposition_t :=
  let* t := own_disposition_type m (z_disposition_type d) in
  let* f := own_option (into_owned m) (z_filename d) in
  let* u := own_list (own_entry m) (z_unstructured_params d) in
  Ok {| z_disposition_type := t; z_filename := f; z_creation_date := z_creation_date d;
        z_modification_date := z_modification_date d; z_read_date := z_read_date d; z_unstructured_params := u |}.
(* entity.rs:112-130 *)
Definition own_headers (m : mem) (r : z_raw_entity_t) : res z_raw_entity_t :=
  let* t := own_type m (zr_type r) in
  let* s := into_owned m (zr_subtype r) in
  let* p := own_list (own_entry m) (zr_parameters r) in
  let* ah := own_list (own_pair m) (zr_additional r) in
  let* id := own_option (own_pair m) (zr_id r) in
  let* de := own_option (into_owned m) (zr_description r) in
  let* di := own_option (own_disposition m) (zr_disposition r) in
  Ok {| zr_type := t; zr_subtype := s; zr_description := de; zr_id := id; zr_parameters := p; zr_disposition := di;
        zr_value := zr_value r; zr_additional := ah |}.

(* where the bytes of a Cow are *)
Definition address_of (heap : N) (c : cow) : N := match c with Borrowed p _ => p | Owned _ => heap end.
(* entity.rs:7-41. Simplified: the strings are owned (94-131) when the value has been cut off already *)
Definition z_raw_entity (m : mem) (l : literals) (heap : N) (E : env) (input : cow) : res z_raw_entity_t :=
  let* data := contents m input in
  let M := {| memory := m; base := address_of heap input; total := length data; literal := at_empty l |} in
  let* (len, a) := z_header_part M E data in
  let* n := usize_sub (length data) len in
  let* v := index_from data n in
  let value := match input with Borrowed p _ => Borrowed (p + N.of_nat n)%N (length v) | Owned _ => Owned v end in
  let enc := match zh_encoding a with Some e => e | None => SevenBit end in
  let '(t, s, p) := match zh_type a with Some x => x | None => z_default_content_type l end in
  let r := {| zr_type := t; zr_subtype := s; zr_description := zh_description a; zr_id := zh_id a; zr_parameters := p;
              zr_disposition := zh_disposition a; zr_value := value; zr_additional := zh_additional a |} in
  let* r := match input with Borrowed _ _ => Ok r | Owned _ => own_headers m r end in
  let* value := z_decode_value M E value enc in
  Ok {| zr_type := zr_type r; zr_subtype := zr_subtype r; zr_description := zr_description r; zr_id := zr_id r; zr_parameters := zr_parameters r;
        zr_disposition := zr_disposition r; zr_value := value; zr_additional := zr_additional r |}.

(* multipart.rs:30-44: a slice of bytes, with its address *)
Definition z_before_boundary (M : place) (boundary : bytes) : parser (N * bytes) := fun i =>
  let* (r, p) := before_boundary boundary i in Ok (r, (here M i, p)).
(* multipart.rs:61-75 *)
Definition z_before_closing_boundary (M : place) (boundary : bytes) : parser (N * bytes) := fun i =>
  let* (r, p) := before_closing_boundary boundary i in Ok (r, (here M i, p)).
(* multipart.rs:89-92: no part is owned *)
Fixpoint z_raw_entities (m : mem) (l : literals) (E : env) (parts : list (N * bytes)) : res (list z_raw_entity_t) :=
  match parts with
  | [] => Ok []
  | (a, p) :: ps =>
    let* e := z_raw_entity m l 0 E (Borrowed a (length p)) in
    let* es := z_raw_entities m l E ps in
    Ok (e :: es)
  end.
(* multipart.rs:77-95 *)
Definition z_parse_multipart (m : mem) (l : literals) (E : env) (base : N) (data : bytes) (parameters : z_map cow) : res (list z_raw_entity_t) :=
  let M := {| memory := m; base := base; total := length data; literal := at_empty l |} in
  let* b := ok_or (map_get parameters (bs "boundary")) (Unknown "Missing boundary parameter") in
  let* boundary := contents m (snd b) in
  let* (i, parts) := many (z_before_boundary M boundary) data in
  let* (_, last_part) := z_before_closing_boundary M boundary i in
  let* (_, parts) := vec_remove (parts ++ [last_part]) 0 in
  z_raw_entities m l E parts.

(* mime.rs:32-50 *)
Inductive z_entity_t :=
| ZEMultipart (subtype : cow) (content : list z_raw_entity_t)
| ZEText (subtype : cow) (value : cow)
| ZEUnknown.
(* entity.rs:43-92 *)
Definition z_entity (m : mem) (l : literals) (heap : N) (E : env) (r : z_raw_entity_t) : res z_entity_t :=
  match zr_type r with
  | ZKnown CMultipart =>
    let* data := contents m (zr_value r) in
    let* content := z_parse_multipart m l E (address_of heap (zr_value r)) data (zr_parameters r) in
    Ok (ZEMultipart (zr_subtype r) content)
  | ZKnown CText =>
    match map_get (zr_parameters r) (bs "charset") with
    | Some (_, c) =>
      let* charset := contents m c in
      match find_charset (lowercase charset) with
      | Some k =>
        let* data := contents m (zr_value r) in
        let* v := decode_charset E k data in
        Ok (ZEText (zr_subtype r) (match k with Utf8OrAscii => Borrowed (address_of heap (zr_value r)) (length data) | External _ => Owned v end))
      | None => Ok ZEUnknown
      end
    | None => Ok ZEUnknown
    end
  | _ => Ok ZEUnknown
  end.

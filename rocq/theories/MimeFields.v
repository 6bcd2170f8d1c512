(* mime.rs and parsing/mime/mime_fields.rs *)
From Verif Require Import Base Utf8 CharSets Combinators Whitespace QuotedString Common Time Address Percent.
Local Open Scope N_scope.

(* mime.rs:52-62 *)
Inductive content_type_t := CText | CImage | CAudio | CVideo | CApplication | CMessage | CMultipart
                          | CUnknown (name : bytes).
(* mime.rs:167-175 (ContentTransferEncoding) *)
Inductive encoding_t := SevenBit | HeightBit | Binary | QuotedPrintableEnc | Base64Enc
                      | UnknownEnc (name : bytes).
(* mime.rs:85-98 *)
Inductive disposition_type_t := DInline | DAttachment | DUnknown (name : bytes).
(* mime.rs:118-129 *)
Record disposition_t := {
  disposition_type : disposition_type_t;
  disp_filename : option bytes;
  disp_creation_date : option date_time_t;
  disp_modification_date : option date_time_t;
  disp_read_date : option date_time_t;
  disp_unstructured : list (bytes * bytes)
}.

(* mime.rs:152-165 *)
Definition is_composite_type (t : content_type_t) : bool :=
  match t with CMessage | CMultipart => true | _ => false end.

(* mime_fields.rs:6-15 *)
Definition ignore_inline_cfws : parser unit := fun i =>
  let* (i, _) := triplet (take_while is_wsp) (optional comment) (take_while is_wsp) i in
  Ok (i, tt).

(* mime_fields.rs:19-21 *)
Definition is_token_char (c : byte) : bool :=
  (31 <? c) && (c <? 127) && negb (is_wsp c) && negb (tspecial c).

(* mime_fields.rs:17-22 *)
Definition token : parser bytes := take_while1 is_token_char.

(* mime_fields.rs:36-44 *)
Fixpoint u8_number_loop (n : nat) (number : N) (i : bytes) : res (bytes * N) :=
  match n with
  | O => Crash OutOfFuel
  | S n' =>
    attempt (digit i)
      (fun '(i, d) =>
         let* number := ok_or (u8_checked_mul number 10) (Unknown "Overflow while reading u8.") in
         let* number := ok_or (u8_checked_add number d) (Unknown "Overflow while reading u8.") in
         u8_number_loop n' number i)
      (Ok (i, number))
  end.

(* mime_fields.rs:33-47 *)
Definition u8_number : parser N := fun i =>
  let* (i, number) := digit i in
  u8_number_loop (S (length i)) number i.

(* mime_fields.rs:24-65 *)
Definition mime_version (E : env) : parser (N * N) := fun i =>
  let* (i, _) := tag_no_case E (bs "MIME-Version:") (bs "mime-vERSION:")
    "TAG NO CASE ERROR: Header name (Mime-Version) does not match." i in
  let* (i, _) := optional cfws i in
  let* (i, d1) := u8_number i in
  let* (i, _) := tag (bs ".") "TAG ERROR: A MIME version's major version number must be followed by a `.`." i in
  let* (i, d2) := u8_number i in
  let* (i, _) := ignore_inline_cfws i in
  let* (i, _) := tag CRLF "TAG ERROR: A header (`MIME-Version` in this case) must end with a CRLF sequence." i in
  Ok (i, (d1, d2)).

(* mime_fields.rs:78-118: `name*index*` followed by `=` *)
Definition indexed_name : parser (bytes * option N * bool) := fun i =>
  let* (i, name) := take_while1 (fun c => is_token_char c && negb (c =? 42)) i in
  let* (i, index) := optional (pair_p
    (tag (bs "*") "TAG ERROR: An indexed MIME parameter name must contain a `*`.")
    (take_while1 is_digit)) i in
  let* index :=
    match index with
    | Some (_, index) =>
      let* v := ok_or (parse_below 256 index) (Unknown "Invalid index") in Ok (Some v)
    | None => Ok None
    end in
  let* (i, encoded) :=
    match i with
    | c :: _ => if c =? 42 then let* r := index_from i 1 in Ok (r, true) else Ok (i, false)
    | [] => Ok (i, false)
    end in
  match i with
  | c :: _ => if c =? 61 then Ok (i, (name, index, encoded))
              else Err (Unknown "It wont work with this method")
  | [] => Err (Unknown "It wont work with this method")
  end.

(* mime_fields.rs:67-145 *)
Definition parameter : parser param := fun i =>
  let* (i, _) := optional cfws i in
  let* (i, _) := tag (bs ";") "TAG ERROR: A MIME parameter must start with `;`." i in
  let* (i, _) := optional cfws i in
  let* (i, (name, index, encoded)) :=
    match_parsers [ indexed_name; pmap (fun name => (name, None, false)) token ] i in
  let name := lowercase name in
  let* (i, _) := tag (bs "=") "TAG ERROR: A MIME parameter name must be followed by a `=`." i in
  let* (i, value) := match_parsers [ token; quoted_string ] i in
  Ok (i, (name, index, encoded, value)).

(* mime_fields.rs:156-225 *)
Definition mime_type (E : env) : parser content_type_t :=
  let known e1 e2 msg t := pmap (fun _ : unit => t) (tag_no_case E (bs e1) (bs e2) msg) in
  match_parsers
    [ known "text" "TEXT" "TAG NO CASE ERROR: In a content type header, `text` type does not match." CText;
      known "multipart" "MULTIPART" "TAG NO CASE ERROR: In a content type header, `multipart` type does not match." CMultipart;
      known "application" "APPLICATION" "TAG NO CASE ERROR: In a content type header, `application` type does not match." CApplication;
      known "image" "IMAGE" "TAG NO CASE ERROR: In a content type header, `image` type does not match." CImage;
      known "video" "VIDEO" "TAG NO CASE ERROR: In a content type header, `video` type does not match." CVideo;
      known "audio" "AUDIO" "TAG NO CASE ERROR: In a content type header, `audio` type does not match." CAudio;
      known "message" "MESSAGE" "TAG NO CASE ERROR: In a content type header, `message` type does not match." CMessage;
      pmap (fun name => CUnknown (lowercase name)) token ]%string.

(* mime_fields.rs:147-245 *)
Definition content_type (E : env) : parser (content_type_t * bytes * list (bytes * bytes)) := fun i =>
  let* (i, _) := tag_no_case E (bs "Content-Type:") (bs "cONTENT-tYPE:")
    "TAG NO CASE ERROR: Header name (Content-Type) does not match." i in
  let* (i, _) := optional cfws i in
  let* (i, t) := mime_type E i in
  let* (i, _) := tag (bs "/") "TAG ERROR: A MIME content type must have a `/` separating the type and the subtype." i in
  let* (i, subtype) := token i in
  let subtype := lowercase subtype in
  let* (i, parameters_vec) := many parameter i in
  let* parameters := collect_parameters E parameters_vec in
  let* (i, _) := ignore_inline_cfws i in
  let* (i, _) := tag CRLF "TAG ERROR: A header (`Content-Type` in this case) must end with a CRLF sequence." i in
  Ok (i, (t, subtype, parameters)).

(* mime_fields.rs:288-307 *)
Definition filename_parameter (E : env) : parser bytes := fun i =>
  let* (i, _) := optional cfws i in
  let* (i, _) := tag (bs ";") "TAG ERROR: In a Content-Disposition header, a filename parameter must start with a `;`." i in
  let* (i, _) := optional cfws i in
  let* (i, _) := tag_no_case E (bs "filename") (bs "FILENAME") "TAG NO CASE ERROR: In a Content-Disposition header, the name of the parameter does not match a filename parameter." i in
  let* (i, _) := tag (bs "=") "TAG ERROR: In a Content-Disposition header, a filename parameter value must be preceded by a `=`." i in
  match_parsers [ token; quoted_string ] i.

(* mime_fields.rs:309-324 *)
Definition date_parameter (E : env) (name name_uppercase : bytes) : parser date_time_t := fun i =>
  let* (i, _) := optional cfws i in
  let* (i, _) := tag (bs ";") "TAG ERROR: In a Content-Disposition header, a date parameter must start with a `;`." i in
  let* (i, _) := optional cfws i in
  let* (i, _) := tag_no_case E name name_uppercase "TAG NO CASE ERROR: In a Content-Disposition header, the name of the parameter does not match a date parameter." i in
  let* (i, _) := tag [61; DQUOTE] "TAG ERROR: In a Content-Disposition header, a date parameter value must be preceded by `=""`." i in
  let* (i, value) := date_time E i in
  let* (i, _) := tag [DQUOTE] "TAG ERROR: In a Content-Disposition header, a date parameter value must be closed by a `""`." i in
  Ok (i, value).

(* what one turn of the loop mime_fields.rs:287-348 stores *)
Inductive disposition_item :=
| DFilename (v : bytes)
| DCreation (d : date_time_t)
| DModification (d : date_time_t)
| DRead (d : date_time_t)
| DParam (p : param).

(* mime_fields.rs:326-347 *)
Definition disposition_item_parser (E : env) : parser disposition_item :=
  match_parsers
    [ pmap DFilename (filename_parameter E);
      pmap DCreation (date_parameter E (bs "creation-date") (bs "CREATION-DATE"));
      pmap DModification (date_parameter E (bs "modification-date") (bs "MODIFICATION-DATE"));
      pmap DRead (date_parameter E (bs "read-date") (bs "READ-DATE"));
      pmap DParam parameter ].

(* the assignments of mime_fields.rs:326-347: the last value wins *)
Definition set_item (d : disposition_t) (x : disposition_item) : disposition_t :=
  match x with
  | DFilename v => {| disposition_type := disposition_type d; disp_filename := Some v;
      disp_creation_date := disp_creation_date d; disp_modification_date := disp_modification_date d;
      disp_read_date := disp_read_date d; disp_unstructured := disp_unstructured d |}
  | DCreation v => {| disposition_type := disposition_type d; disp_filename := disp_filename d;
      disp_creation_date := Some v; disp_modification_date := disp_modification_date d;
      disp_read_date := disp_read_date d; disp_unstructured := disp_unstructured d |}
  | DModification v => {| disposition_type := disposition_type d; disp_filename := disp_filename d;
      disp_creation_date := disp_creation_date d; disp_modification_date := Some v;
      disp_read_date := disp_read_date d; disp_unstructured := disp_unstructured d |}
  | DRead v => {| disposition_type := disposition_type d; disp_filename := disp_filename d;
      disp_creation_date := disp_creation_date d; disp_modification_date := disp_modification_date d;
      disp_read_date := Some v; disp_unstructured := disp_unstructured d |}
  | DParam _ => d
  end.

(* the parameters pushed on parameters_vec, mime_fields.rs:342-344 *)
Definition item_params (l : list disposition_item) : list param :=
  flat_map (fun x => match x with DParam p => [p] | _ => [] end) l.

(* mime_fields.rs:258-276 *)
Definition disposition_kind (E : env) : parser disposition_type_t :=
  match_parsers
    [ pmap (fun _ : unit => DInline) (tag_no_case E (bs "inline") (bs "INLINE") "TAG NO CASE ERROR: In a content disposition header, `inline` disposition does not match.");
      pmap (fun _ : unit => DAttachment) (tag_no_case E (bs "attachment") (bs "ATTACHMENT") "TAG NO CASE ERROR: In a content disposition header, `attachment` disposition does not match.");
      pmap (fun name => DUnknown (lowercase name)) token ].

(* mime_fields.rs:247-359 *)
Definition content_disposition (E : env) : parser disposition_t := fun i =>
  let* (i, _) := tag_no_case E (bs "Content-Disposition:") (bs "cONTENT-dISPOSITION:")
    "TAG NO CASE ERROR: Header name (Content-Disposition) does not match." i in
  let* (i, _) := optional cfws i in
  let* (i, kind) := disposition_kind E i in
  let* (i, items) := many (disposition_item_parser E) i in
  let* params := collect_parameters E (item_params items) in
  let* (i, _) := ignore_inline_cfws i in
  let* (i, _) := tag CRLF "TAG ERROR: A header (`Content-Disposition` in this case) must end with a CRLF sequence." i in
  Ok (i, fold_left set_item items
           {| disposition_type := kind; disp_filename := None; disp_creation_date := None;
              disp_modification_date := None; disp_read_date := None; disp_unstructured := params |}).

(* mime_fields.rs:370-400 *)
Definition encoding_name (E : env) : parser encoding_t :=
  let known e1 e2 msg t := pmap (fun _ : unit => t) (tag_no_case E (bs e1) (bs e2) msg) in
  match_parsers
    [ known "7bit" "7BIT" "TAG NO CASE ERROR: In a content transfer encoding header, `7bit` encoding does not match." SevenBit;
      known "quoted-printable" "QUOTED-PRINTABLE" "TAG NO CASE ERROR: In a content transfer encoding header, `quoted-printable` encoding does not match." QuotedPrintableEnc;
      known "base64" "BASE64" "TAG NO CASE ERROR: In a content transfer encoding header, `base64` encoding does not match." Base64Enc;
      known "8bit" "8BIT" "TAG NO CASE ERROR: In a content transfer encoding header, `8bit` encoding does not match." HeightBit;
      known "binary" "BINARY" "TAG NO CASE ERROR: In a content transfer encoding header, `binary` encoding does not match." Binary;
      pmap (fun name => UnknownEnc (lowercase name)) token ]%string.

(* mime_fields.rs:361-406 *)
Definition content_transfer_encoding (E : env) : parser encoding_t := fun i =>
  let* (i, _) := tag_no_case E (bs "Content-Transfer-Encoding:") (bs "cONTENT-tRANSFER-eNCODING:")
    "TAG NO CASE ERROR: Header name (Content-Transfer-Encoding) does not match." i in
  let* (i, _) := optional cfws i in
  let* (i, e) := encoding_name E i in
  let* (i, _) := ignore_inline_cfws i in
  let* (i, _) := tag CRLF "TAG ERROR: A header (`Content-Transfer-Encoding` in this case) must end with a CRLF sequence." i in
  Ok (i, e).

(* mime_fields.rs:408-423 *)
Definition content_id (E : env) : parser (bytes * bytes) := fun i =>
  let* (i, _) := tag_no_case E (bs "Content-ID:") (bs "cONTENT-id:")
    "TAG NO CASE ERROR: Header name (Content-ID) does not match." i in
  let* (i, id) := message_id E i in
  let* (i, _) := tag CRLF "TAG ERROR: A header (`Content-ID` in this case) must end with a CRLF sequence." i in
  Ok (i, id).

(* mime_fields.rs:425-440 *)
Definition content_description (E : env) : parser bytes := fun i =>
  let* (i, _) := tag_no_case E (bs "Content-Description:") (bs "cONTENT-dESCRIPTION:")
    "TAG NO CASE ERROR: Header name (Content-Description) does not match." i in
  let* (i, d) := mime_unstructured E i in
  let* (i, _) := tag CRLF "TAG ERROR: A header (`Content-Description` in this case) must end with a CRLF sequence." i in
  Ok (i, d).

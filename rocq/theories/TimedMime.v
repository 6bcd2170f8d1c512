(* The parser again, counting the work it does, for the builds with mime; also the parsing of
   the entities.

   Every definition below is the one of the same name (without the m_) in the model, and its
   comment cites the same lines; TimedMimeErase.v proves that both return the same results. The
   parsers that are the same with and without mime are those of Timed.v, the codecs and the
   search for boundaries are those of TimedCodec.v. The work is counted as there, and:
   - lowercase, to_vec and clone of a text: one for each byte;
   - a HashMap operation on a text: one, and one for each byte of the key (hashed and compared);
     on a u8: one;
   - the conversion of a text from a charset: one for each byte read and one for each byte
     written;
   - the search for the name of a charset is bounded by the table and not counted. *)
From Verif Require Import Base Utf8 CharSets Combinators Whitespace QuotedString EncodedWord Charset Percent Common Time Address MimeFields Fields Message Entity Email Timed TimedCodec.
Local Open Scope nat_scope.

(* ---- encoded_headers.rs ---- *)
(* encoded_headers.rs:28-34 *)
Definition ew_charset_char (c : byte) : bool := ((32 <? c) && (c <? 127) && negb (especials c) && negb (c =? 42))%N.
Definition m_ew_charset : timed_parser bytes := fun i =>
  let+ (i, c) := t_take_while1 ew_charset_char i in
  t_step (length c) (Ok (i, lowercase c)).
(* encoded_headers.rs:36-40 *)
Definition ew_encoding_char (c : byte) : bool := ((32 <? c) && (c <? 127) && negb (especials c))%N.
Definition m_ew_encoding : timed_parser bytes := fun i =>
  let+ (i, c) := t_take_while1 ew_encoding_char i in
  t_step (length c) (Ok (i, lowercase c)).
(* encoded_headers.rs:42-44 *)
Definition ew_text_char (c : byte) : bool := ((32 <? c) && (c <=? 126) && negb (c =? 63))%N.
Definition m_encoded_text : timed_parser bytes := t_take_while1 ew_text_char.
(* the arms of encoded_headers.rs:90-112, entity.rs:59-82 and percent_encoding.rs:71-93 *)
Definition m_decode_charset (E : env) (k : charset_kind) (value : bytes) : timed bytes :=
  t_step (S (length value + match decode_charset E k value with Ok v => length v | _ => 0 end)) (decode_charset E k value).
(* encoded_headers.rs:46-115; data.into_owned().into_bytes() copies the text *)
Definition m_encoded_word (E : env) : timed_parser bytes := fun i =>
  let+ (i, _) := t_tag (bs "=?") "TAG ERROR: An encoded word must start with `=?`." i in
  let+ (i, charset) := m_ew_charset i in
  let+ (i, _) := t_optional (t_pair_p
      (t_tag (bs "*") "TAG ERROR: In an encoded word with encoding, a charset must be followed by a `*`.")
      m_ew_encoding) i in
  let+ (i, _) := t_tag (bs "?") "TAG ERROR: In an encoded word, a language must be followed by a `?`." i in
  let+ (i, encoding) := m_ew_encoding i in
  let+ (i, _) := t_tag (bs "?") "TAG ERROR: In an encoded word, a encoding must be followed by a `?`." i in
  let+ (i, data) := m_encoded_text i in
  let+ (i, _) := t_tag (bs "?=") "TAG ERROR: An encoded word must end with `?=`." i in
  let+ _ := t_step (length data) (Ok tt) in
  let+ value :=
    if bytes_eqb encoding (bs "b") then t_decode_base64 E data
    else if bytes_eqb encoding (bs "q") then t_decode_header_qp E data
    else t_err (Unknown "Unknown encoding") in
  let+ text :=
    match find_charset charset with
    | Some k => m_decode_charset E k value
    | None => t_err (Unknown "Unknown charset")
    end in
  t_ok (i, text).

(* ---- common.rs ---- *)
(* common.rs:79-91 *)
Definition m_phrase_word (E : env) : timed_parser bytes :=
  t_match_parsers [ (fun i => let+ (i, _) := t_optional t_fws i in m_encoded_word E i); t_word ].
(* common.rs:78-103 *)
Definition m_phrase (E : env) : timed_parser (list bytes) := t_many1 (m_phrase_word E).
(* common.rs:127-144 *)
Definition m_unstructured_step (E : env) (previous_was_encoded : bool) : timed_parser (bytes * bool) := fun i =>
  let+ (i, wsp) := t_attempt (t_fws i) (fun ra => t_ok ra) (t_ok (i, [])) in
  t_attempt (m_encoded_word E i)
    (fun '(i, text) => if previous_was_encoded then t_ok (i, (text, true))
                       else let+ s := t_concat wsp text in t_ok (i, (s, true)))
    (t_attempt (t_take_while1 is_vchar i)
       (fun '(i, text) => let+ s := t_concat wsp text in t_ok (i, (s, false)))
       (t_err (Unknown "No match arm is matching the data"))).
(* combinators.rs:174-187 applied to that closure; each text is copied at most once and appended once *)
Fixpoint m_unstructured_loop (E : env) (n : nat) (previous_was_encoded : bool) (i : bytes) : timed (bytes * bytes) :=
  match n with
  | 0 => (Crash OutOfFuel, 0)
  | S n' =>
    let+ _ := t_step 1 (Ok tt) in
    t_attempt (m_unstructured_step E previous_was_encoded i)
      (fun '(i, (text, flag)) =>
         let+ (r, rest) := m_unstructured_loop E n' flag i in t_step (2 * length text) (Ok (r, text ++ rest)))
      (t_ok (i, []))
  end.
(* common.rs:124-151 *)
Definition m_unstructured (E : env) : timed_parser bytes := fun i =>
  let+ (i, output) := m_unstructured_loop E (S (length i)) false i in
  let+ (i, _) := t_ignore_many (t_take_while1 is_wsp) i in
  t_ok (i, output).

(* ---- parsing/address.rs ---- *)
(* parsing/address.rs:68-79 *)
Definition m_name_addr (E : env) : timed_parser mailbox_t := fun i =>
  let+ (i, n) := t_optional (m_phrase E) i in
  let+ (i, a) := t_angle_addr E i in
  t_ok (i, {| m_name := n; m_address := a |}).
(* parsing/address.rs:117-135 *)
Definition m_mailbox (E : env) : timed_parser mailbox_t :=
  t_match_parsers [ m_name_addr E; t_pmap (fun a => {| m_name := None; m_address := a |}) (t_addr_spec E) ].
(* parsing/address.rs:137-148 *)
Definition m_mailbox_list (E : env) : timed_parser (list mailbox_t) := fun i =>
  let+ (i, m) := m_mailbox E i in
  let+ (i, l) := t_many (t_prefixed (m_mailbox E) (bs ",")) i in
  t_ok (i, m :: l).
(* parsing/address.rs:150-175 *)
Definition m_group (E : env) : timed_parser (list bytes * list mailbox_t) := fun i =>
  let+ (i, n) := m_phrase E i in
  let+ (i, _) := t_tag (bs ":") "TAG ERROR: A group display name must be followed by a `:`." i in
  let+ (i, l) := t_attempt (m_mailbox_list E i) (fun ra => t_ok ra)
                   (t_attempt (t_cfws i) (fun '(i', _) => t_ok (i', [])) (t_ok (i, []))) in
  let+ (i, _) := t_tag (bs ";") "TAG ERROR: A group mailbox list must be closed by a `;`." i in
  let+ (i, _) := t_optional t_cfws i in
  t_ok (i, (n, l)).
(* parsing/address.rs:177-185 *)
Definition m_address_p (E : env) : timed_parser address_t := fun i =>
  t_attempt (m_mailbox E i) (fun '(i, m) => t_ok (i, AMailbox m))
    (t_attempt (m_group E i) (fun '(i, g) => t_ok (i, AGroup g))
       (t_err (Unknown "Invalid address: not a mailbox nor a group"))).
(* parsing/address.rs:187-198 *)
Definition m_address_list (E : env) : timed_parser (list address_t) := fun i =>
  let+ (i, a) := m_address_p E i in
  let+ (i, l) := t_many (t_prefixed (m_address_p E) (bs ",")) i in
  t_ok (i, a :: l).

(* ---- percent_encoding.rs ---- *)
(* percent_encoding.rs:103-115: an indexed name is looked up, copied and inserted, and looked up again *)
Fixpoint m_split_parameters (l : list param) (plain : list (bytes * bytes))
    (complex : list (bytes * list (N * (bool * bytes)))) : timed (list (bytes * bytes) * list (bytes * list (N * (bool * bytes)))) :=
  match l with
  | [] => t_step 1 (Ok (plain, complex))
  | (name, index, encoded, value) :: l' =>
    match index with
    | Some index =>
      let+ _ := t_step (5 + 4 * length name) (Ok tt) in
      let m := match map_get complex name with Some m => m | None => [] end in
      m_split_parameters l' plain (map_insert complex name (imap_insert m index (encoded, value)))
    | None =>
      let+ _ := t_step (2 + length name) (Ok tt) in
      m_split_parameters l' (map_insert plain name value) complex
    end
  end.
(* percent_encoding.rs:4-96 *)
Definition m_decode_parameter (E : env) (input charset : bytes) : timed bytes :=
  let+ v := t_decode_parameter E input charset in
  t_step (length v) (Ok v).
(* percent_encoding.rs:118-163: the charset is lowercased and cloned, the value copied *)
Definition m_first_segment (E : env) (encoded : bool) (value : bytes) : timed (bytes * option bytes) :=
  if encoded then
    let+ (value, charset) := t_take_while (fun c => negb (c =? 39)%N) value in
    let+ charset := t_step (2 * length charset) (Ok (lowercase charset)) in
    let+ (value, _) := t_tag (bs "'") "TAG ERROR: In a parameter list, a charset must be followed by a `'`." value in
    let+ (value, _) := t_take_while (fun c => negb (c =? 39)%N) value in
    let+ (value, _) := t_tag (bs "'") "TAG ERROR: In a parameter list, a language must be followed by a `'`." value in
    let+ _ := t_step (length value) (Ok tt) in
    let+ v := m_decode_parameter E value charset in
    t_ok (v, Some charset)
  else t_ok (value, None).
(* percent_encoding.rs:165-179: one for the HashMap::remove, the charset is cloned, the text copied *)
Fixpoint m_next_segments (E : env) (n : nat) (values : list (N * (bool * bytes))) (charset : option bytes)
    (idx : N) (value : bytes) : timed bytes :=
  match n with
  | O => (Crash OutOfFuel, 0)
  | S n' =>
    let+ _ := t_step 1 (Ok tt) in
    match imap_remove values idx with
    | None => t_ok value
    | Some ((encoded, new_value), values) =>
      let+ value :=
        match encoded, charset with
        | true, Some c =>
          let+ _ := t_step (length new_value + length c) (Ok tt) in
          let+ d := m_decode_parameter E new_value c in t_step (2 * length d) (Ok (value ++ d))
        | _, _ => t_step (2 * length new_value) (Ok (value ++ new_value))
        end in
      let+ idx := t_step 0 (u8_add E idx 1) in
      m_next_segments E n' values charset idx value
    end
  end.
(* percent_encoding.rs:117-182: the value of index 0 is copied at most once when it becomes an owned String *)
Definition m_join_segments (E : env) (values : list (N * (bool * bytes))) : timed (option bytes) :=
  let+ _ := t_step 1 (Ok tt) in
  match imap_remove values 0 with
  | None => t_ok None
  | Some ((encoded, value), values) =>
    let+ (value, charset) := m_first_segment E encoded value in
    let+ _ := t_step (length value) (Ok tt) in
    let+ v := m_next_segments E (S (length values)) values charset 1%N value in
    t_ok (Some v)
  end.
(* percent_encoding.rs:116-183: the name is copied and inserted *)
Fixpoint m_join_all (E : env) (names : list bytes) (complex : list (bytes * list (N * (bool * bytes))))
    (parameters : list (bytes * bytes)) : timed (list (bytes * bytes)) :=
  match names with
  | [] => t_step 1 (Ok parameters)
  | name :: names' =>
    let+ _ := t_step (2 + 2 * length name) (Ok tt) in
    match map_get complex name with
    | None => m_join_all E names' complex parameters
    | Some values =>
      let+ v := m_join_segments E values in
      let parameters := match v with Some v => map_insert parameters name v | None => parameters end in
      m_join_all E names' complex parameters
    end
  end.
(* percent_encoding.rs:98-185 *)
Definition m_collect_parameters (E : env) (l : list param) : timed (list (bytes * bytes)) :=
  let+ (plain, complex) := m_split_parameters l [] [] in
  m_join_all E (hash_order E (map fst complex)) complex plain.

(* ---- mime_fields.rs ---- *)
(* mime_fields.rs:6-15 *)
Definition m_ignore_inline_cfws : timed_parser unit := fun i =>
  let+ (i, _) := t_take_while is_wsp i in
  let+ (i, _) := t_optional t_comment i in
  let+ (i, _) := t_take_while is_wsp i in
  t_ok (i, tt).
(* mime_fields.rs:17-22 *)
Definition m_token : timed_parser bytes := t_take_while1 is_token_char.
(* the same, lowercased *)
Definition m_lower_token : timed_parser bytes := fun i =>
  let+ (i, t) := m_token i in
  t_step (length t) (Ok (i, lowercase t)).
(* mime_fields.rs:36-44 *)
Fixpoint m_u8_number_loop (n : nat) (number : N) (i : bytes) : timed (bytes * N) :=
  match n with
  | O => (Crash OutOfFuel, 0)
  | S n' =>
    t_attempt (t_digit i)
      (fun '(i, d) =>
         let+ number := t_step 0 (ok_or (u8_checked_mul number 10) (Unknown "Overflow while reading u8.")) in
         let+ number := t_step 0 (ok_or (u8_checked_add number d) (Unknown "Overflow while reading u8.")) in
         m_u8_number_loop n' number i)
      (t_ok (i, number))
  end.
(* mime_fields.rs:33-47 *)
Definition m_u8_number : timed_parser N := fun i =>
  let+ (i, number) := t_digit i in
  m_u8_number_loop (S (length i)) number i.
(* mime_fields.rs:24-65, after the name of the header and before its end *)
Definition m_version_value : timed_parser (N * N) := fun i =>
  let+ (i, _) := t_optional t_cfws i in
  let+ (i, d1) := m_u8_number i in
  let+ (i, _) := t_tag (bs ".") "TAG ERROR: A MIME version's major version number must be followed by a `.`." i in
  let+ (i, d2) := m_u8_number i in
  let+ (i, _) := m_ignore_inline_cfws i in
  t_ok (i, (d1, d2)).
(* mime_fields.rs:24-65 *)
Definition m_mime_version (E : env) : timed_parser (N * N) :=
  t_header E "MIME-Version:" "mime-vERSION:" "TAG NO CASE ERROR: Header name (Mime-Version) does not match."
    m_version_value "TAG ERROR: A header (`MIME-Version` in this case) must end with a CRLF sequence.".
(* mime_fields.rs:78-118; str::parse is a loop over the digits *)
Definition m_indexed_name : timed_parser (bytes * option N * bool) := fun i =>
  let+ (i, name) := t_take_while1 (fun c => is_token_char c && negb (c =? 42)%N) i in
  let+ (i, index) := t_optional (t_pair_p
    (t_tag (bs "*") "TAG ERROR: An indexed MIME parameter name must contain a `*`.")
    (t_take_while1 is_digit)) i in
  let+ index :=
    match index with
    | Some (_, index) =>
      let+ v := t_step (length index) (ok_or (parse_below 256 index) (Unknown "Invalid index")) in t_ok (Some v)
    | None => t_ok None
    end in
  let+ (i, encoded) := t_step 1
    match i with
    | c :: _ => if (c =? 42)%N then let* r := index_from i 1 in Ok (r, true) else Ok (i, false)
    | [] => Ok (i, false)
    end in
  t_step 1
  match i with
  | c :: _ => if (c =? 61)%N then Ok (i, (name, index, encoded))
              else Err (Unknown "It wont work with this method")
  | [] => Err (Unknown "It wont work with this method")
  end.
(* mime_fields.rs:67-145 *)
Definition m_parameter : timed_parser param := fun i =>
  let+ (i, _) := t_optional t_cfws i in
  let+ (i, _) := t_tag (bs ";") "TAG ERROR: A MIME parameter must start with `;`." i in
  let+ (i, _) := t_optional t_cfws i in
  let+ (i, (name, index, encoded)) :=
    t_match_parsers [ m_indexed_name; t_pmap (fun name => (name, None, false)) m_token ] i in
  let+ name := t_step (length name) (Ok (lowercase name)) in
  let+ (i, _) := t_tag (bs "=") "TAG ERROR: A MIME parameter name must be followed by a `=`." i in
  let+ (i, value) := t_match_parsers [ m_token; t_quoted_string ] i in
  t_ok (i, (name, index, encoded, value)).
(* mime_fields.rs:156-225 *)
Definition m_mime_type (E : env) : timed_parser content_type_t :=
  let known e1 e2 msg t := t_pmap (fun _ : unit => t) (t_tag_no_case E (bs e1) (bs e2) msg) in
  t_match_parsers
    [ known "text" "TEXT" "TAG NO CASE ERROR: In a content type header, `text` type does not match." CText;
      known "multipart" "MULTIPART" "TAG NO CASE ERROR: In a content type header, `multipart` type does not match." CMultipart;
      known "application" "APPLICATION" "TAG NO CASE ERROR: In a content type header, `application` type does not match." CApplication;
      known "image" "IMAGE" "TAG NO CASE ERROR: In a content type header, `image` type does not match." CImage;
      known "video" "VIDEO" "TAG NO CASE ERROR: In a content type header, `video` type does not match." CVideo;
      known "audio" "AUDIO" "TAG NO CASE ERROR: In a content type header, `audio` type does not match." CAudio;
      known "message" "MESSAGE" "TAG NO CASE ERROR: In a content type header, `message` type does not match." CMessage;
      t_pmap CUnknown m_lower_token ]%string.
(* mime_fields.rs:147-245, after the name of the header and before its end *)
Definition m_content_type_value (E : env) : timed_parser (content_type_t * bytes * list (bytes * bytes)) := fun i =>
  let+ (i, _) := t_optional t_cfws i in
  let+ (i, t) := m_mime_type E i in
  let+ (i, _) := t_tag (bs "/") "TAG ERROR: A MIME content type must have a `/` separating the type and the subtype." i in
  let+ (i, subtype) := m_lower_token i in
  let+ (i, parameters_vec) := t_many m_parameter i in
  let+ parameters := m_collect_parameters E parameters_vec in
  let+ (i, _) := m_ignore_inline_cfws i in
  t_ok (i, (t, subtype, parameters)).
(* mime_fields.rs:147-245 *)
Definition m_content_type (E : env) : timed_parser (content_type_t * bytes * list (bytes * bytes)) :=
  t_header E "Content-Type:" "cONTENT-tYPE:" "TAG NO CASE ERROR: Header name (Content-Type) does not match."
    (m_content_type_value E) "TAG ERROR: A header (`Content-Type` in this case) must end with a CRLF sequence.".
(* mime_fields.rs:288-307 *)
Definition m_filename_parameter (E : env) : timed_parser bytes := fun i =>
  let+ (i, _) := t_optional t_cfws i in
  let+ (i, _) := t_tag (bs ";") "TAG ERROR: In a Content-Disposition header, a filename parameter must start with a `;`." i in
  let+ (i, _) := t_optional t_cfws i in
  let+ (i, _) := t_tag_no_case E (bs "filename") (bs "FILENAME") "TAG NO CASE ERROR: In a Content-Disposition header, the name of the parameter does not match a filename parameter." i in
  let+ (i, _) := t_tag (bs "=") "TAG ERROR: In a Content-Disposition header, a filename parameter value must be preceded by a `=`." i in
  t_match_parsers [ m_token; t_quoted_string ] i.
(* mime_fields.rs:309-324 *)
Definition m_date_parameter (E : env) (name name_uppercase : bytes) : timed_parser date_time_t := fun i =>
  let+ (i, _) := t_optional t_cfws i in
  let+ (i, _) := t_tag (bs ";") "TAG ERROR: In a Content-Disposition header, a date parameter must start with a `;`." i in
  let+ (i, _) := t_optional t_cfws i in
  let+ (i, _) := t_tag_no_case E name name_uppercase "TAG NO CASE ERROR: In a Content-Disposition header, the name of the parameter does not match a date parameter." i in
  let+ (i, _) := t_tag [61%N; DQUOTE] "TAG ERROR: In a Content-Disposition header, a date parameter value must be preceded by `=""`." i in
  let+ (i, value) := t_date_time E i in
  let+ (i, _) := t_tag [DQUOTE] "TAG ERROR: In a Content-Disposition header, a date parameter value must be closed by a `""`." i in
  t_ok (i, value).
(* mime_fields.rs:326-347 *)
Definition m_disposition_item (E : env) : timed_parser disposition_item :=
  t_match_parsers
    [ t_pmap DFilename (m_filename_parameter E);
      t_pmap DCreation (m_date_parameter E (bs "creation-date") (bs "CREATION-DATE"));
      t_pmap DModification (m_date_parameter E (bs "modification-date") (bs "MODIFICATION-DATE"));
      t_pmap DRead (m_date_parameter E (bs "read-date") (bs "READ-DATE"));
      t_pmap DParam m_parameter ].
(* mime_fields.rs:258-276 *)
Definition m_disposition_kind (E : env) : timed_parser disposition_type_t :=
  t_match_parsers
    [ t_pmap (fun _ : unit => DInline) (t_tag_no_case E (bs "inline") (bs "INLINE") "TAG NO CASE ERROR: In a content disposition header, `inline` disposition does not match.");
      t_pmap (fun _ : unit => DAttachment) (t_tag_no_case E (bs "attachment") (bs "ATTACHMENT") "TAG NO CASE ERROR: In a content disposition header, `attachment` disposition does not match.");
      t_pmap DUnknown m_lower_token ].
(* mime_fields.rs:247-359, after the name of the header and before its end *)
Definition m_disposition_value (E : env) : timed_parser disposition_t := fun i =>
  let+ (i, _) := t_optional t_cfws i in
  let+ (i, kind) := m_disposition_kind E i in
  let+ (i, items) := t_many (m_disposition_item E) i in
  let+ params := m_collect_parameters E (item_params items) in
  let+ (i, _) := m_ignore_inline_cfws i in
  t_step (S (length items)) (Ok (i, fold_left set_item items
           {| disposition_type := kind; disp_filename := None; disp_creation_date := None;
              disp_modification_date := None; disp_read_date := None; disp_unstructured := params |})).
(* mime_fields.rs:247-359 *)
Definition m_content_disposition (E : env) : timed_parser disposition_t :=
  t_header E "Content-Disposition:" "cONTENT-dISPOSITION:" "TAG NO CASE ERROR: Header name (Content-Disposition) does not match."
    (m_disposition_value E) "TAG ERROR: A header (`Content-Disposition` in this case) must end with a CRLF sequence.".
(* mime_fields.rs:370-400 *)
Definition m_encoding_name (E : env) : timed_parser encoding_t :=
  let known e1 e2 msg t := t_pmap (fun _ : unit => t) (t_tag_no_case E (bs e1) (bs e2) msg) in
  t_match_parsers
    [ known "7bit" "7BIT" "TAG NO CASE ERROR: In a content transfer encoding header, `7bit` encoding does not match." SevenBit;
      known "quoted-printable" "QUOTED-PRINTABLE" "TAG NO CASE ERROR: In a content transfer encoding header, `quoted-printable` encoding does not match." QuotedPrintableEnc;
      known "base64" "BASE64" "TAG NO CASE ERROR: In a content transfer encoding header, `base64` encoding does not match." Base64Enc;
      known "8bit" "8BIT" "TAG NO CASE ERROR: In a content transfer encoding header, `8bit` encoding does not match." HeightBit;
      known "binary" "BINARY" "TAG NO CASE ERROR: In a content transfer encoding header, `binary` encoding does not match." Binary;
      t_pmap UnknownEnc m_lower_token ]%string.
(* mime_fields.rs:361-406, after the name of the header and before its end *)
Definition m_encoding_value (E : env) : timed_parser encoding_t := fun i =>
  let+ (i, _) := t_optional t_cfws i in
  let+ (i, e) := m_encoding_name E i in
  let+ (i, _) := m_ignore_inline_cfws i in
  t_ok (i, e).
(* mime_fields.rs:361-406 *)
Definition m_content_transfer_encoding (E : env) : timed_parser encoding_t :=
  t_header E "Content-Transfer-Encoding:" "cONTENT-tRANSFER-eNCODING:" "TAG NO CASE ERROR: Header name (Content-Transfer-Encoding) does not match."
    (m_encoding_value E) "TAG ERROR: A header (`Content-Transfer-Encoding` in this case) must end with a CRLF sequence.".
(* mime_fields.rs:408-423 *)
Definition m_content_id (E : env) : timed_parser (bytes * bytes) :=
  t_header E "Content-ID:" "cONTENT-id:" "TAG NO CASE ERROR: Header name (Content-ID) does not match."
    (t_message_id E) "TAG ERROR: A header (`Content-ID` in this case) must end with a CRLF sequence.".
(* mime_fields.rs:425-440 *)
Definition m_content_description (E : env) : timed_parser bytes :=
  t_header E "Content-Description:" "cONTENT-dESCRIPTION:" "TAG NO CASE ERROR: Header name (Content-Description) does not match."
    (m_unstructured E) "TAG ERROR: A header (`Content-Description` in this case) must end with a CRLF sequence.".

(* ---- fields.rs ---- *)
(* fields.rs:187-202 *)
Definition m_field_from (E : env) : timed_parser (list mailbox_t) :=
  t_header E "From:" "fROM:" "TAG NO CASE ERROR: Header name (From) does not match."
    (m_mailbox_list E) "TAG ERROR: A header (`From` in this case) must end with a CRLF sequence.".
(* fields.rs:204-219 *)
Definition m_field_sender (E : env) : timed_parser mailbox_t :=
  t_header E "Sender:" "sENDER:" "TAG NO CASE ERROR: Header name (Sender) does not match."
    (m_mailbox E) "TAG ERROR: A header (`Sender` in this case) must end with a CRLF sequence.".
(* fields.rs:221-236 *)
Definition m_field_reply_to (E : env) : timed_parser (list address_t) :=
  t_header E "Reply-To:" "rEPLY-tO:" "TAG NO CASE ERROR: Header name (Reply-To) does not match."
    (m_address_list E) "TAG ERROR: A header (`Reply-To` in this case) must end with a CRLF sequence.".
(* fields.rs:238-253 *)
Definition m_field_to (E : env) : timed_parser (list address_t) :=
  t_header E "To:" "tO:" "TAG NO CASE ERROR: Header name (To) does not match."
    (m_address_list E) "TAG ERROR: A header (`To` in this case) must end with a CRLF sequence.".
(* fields.rs:255-270 *)
Definition m_field_cc (E : env) : timed_parser (list address_t) :=
  t_header E "Cc:" "cC:" "TAG NO CASE ERROR: Header name (Cc) does not match."
    (m_address_list E) "TAG ERROR: A header (`Cc` in this case) must end with a CRLF sequence.".
(* fields.rs:279-285 *)
Definition m_bcc_value (E : env) : timed_parser (list address_t) := fun i =>
  t_attempt (m_address_list E i) (fun ra => t_ok ra)
    (t_attempt (t_cfws i) (fun '(i, _) => t_ok (i, []))
       (t_err (Unknown "Invalid bcc field"))).
(* fields.rs:272-293 *)
Definition m_field_bcc (E : env) : timed_parser (list address_t) :=
  t_header E "Bcc:" "bCC:" "TAG NO CASE ERROR: Header name (Bcc) does not match."
    (m_bcc_value E) "TAG ERROR: A header (`Bcc` in this case) must end with a CRLF sequence.".
(* fields.rs:346-364 *)
Definition m_field_subject (E : env) : timed_parser bytes :=
  t_header E "Subject:" "sUBJECT:" "TAG NO CASE ERROR: Header name (Subject) does not match."
    (m_unstructured E) "TAG ERROR: A header (`Subject` in this case) must end with a CRLF sequence.".
(* fields.rs:366-384 *)
Definition m_field_comments (E : env) : timed_parser bytes :=
  t_header E "Comments:" "cOMMENTS:" "TAG NO CASE ERROR: Header name (Comments) does not match."
    (m_unstructured E) "TAG ERROR: A header (`Comments` in this case) must end with a CRLF sequence.".
(* fields.rs:394-401 *)
Definition m_keywords_value (E : env) : timed_parser (list (list bytes)) := fun i =>
  let+ (i, k) := m_phrase E i in
  let+ (i, l) := t_many (t_prefixed (m_phrase E) (bs ",")) i in
  t_step (S (length l)) (Ok (i, k :: l)).
(* fields.rs:386-410 *)
Definition m_field_keywords (E : env) : timed_parser (list (list bytes)) :=
  t_header E "Keywords:" "kEYWORDS:" "TAG NO CASE ERROR: Header name (Keywords) does not match."
    (m_keywords_value E) "TAG ERROR: A header (`Keywords` in this case) must end with a CRLF sequence.".
(* fields.rs:83-94 with 412-494 *)
Definition m_resent_field (E : env) : timed_parser trace_field :=
  t_match_parsers
    [ t_pmap TDate (t_resent E "TAG NO CASE ERROR: Header name (Resent-Date) does not match." (t_field_date E));
      t_pmap TFrom (t_resent E "TAG NO CASE ERROR: Header name (Resent-From) does not match." (m_field_from E));
      t_pmap TSender (t_resent E "TAG NO CASE ERROR: Header name (Resent-Sender) does not match." (m_field_sender E));
      t_pmap TTo (t_resent E "TAG NO CASE ERROR: Header name (Resent-To) does not match." (m_field_to E));
      t_pmap TCc (t_resent E "TAG NO CASE ERROR: Header name (Resent-Cc) does not match." (m_field_cc E));
      t_pmap TBcc (t_resent E "TAG NO CASE ERROR: Header name (Resent-Bcc) does not match." (m_field_bcc E));
      t_pmap TMessageId (t_resent E "TAG NO CASE ERROR: Header name (Resent-Message-ID) does not match." (t_field_message_id E)) ].
(* fields.rs:589-608 *)
Definition m_unknown (E : env) : timed_parser (bytes * bytes) := fun i =>
  let+ (i, name) := t_take_while1 is_ftext i in
  let+ (i, _) := t_tag (bs ":") "TAG ERROR: A header name must be followed by a `:`." i in
  let+ (i, value) := (if f_unrecognized_headers E then m_unstructured E else t_unstructured) i in
  let+ (i, _) := t_tag CRLF "TAG ERROR: A header must end with a CRLF sequence." i in
  t_ok (i, (name, value)).
(* fields.rs:79-105 *)
Definition m_trace_block (E : env) : timed_parser field := fun i =>
  let+ (i, (rp, rc)) := t_trace E i in
  let+ (i, l) := t_many (m_resent_field E) i in
  t_ok (i, FTrace rp rc l).
(* fields.rs:110-161 *)
Definition m_field_parsers (E : env) : list (timed_parser field) :=
  t_cfg (f_date E) (t_pmap FDate (t_field_date E)) ++
  t_cfg (f_from E) (t_pmap FFrom (m_field_from E)) ++
  t_cfg (f_sender E) (t_pmap FSender (m_field_sender E)) ++
  t_cfg (f_reply_to E) (t_pmap FReplyTo (m_field_reply_to E)) ++
  t_cfg (f_to E) (t_pmap FTo (m_field_to E)) ++
  t_cfg (f_cc E) (t_pmap FCc (m_field_cc E)) ++
  t_cfg (f_bcc E) (t_pmap FBcc (m_field_bcc E)) ++
  t_cfg (f_message_id E) (t_pmap FMessageId (t_field_message_id E)) ++
  t_cfg (f_in_reply_to E) (t_pmap FInReplyTo (t_field_in_reply_to E)) ++
  t_cfg (f_references E) (t_pmap FReferences (t_field_references E)) ++
  t_cfg (f_subject E) (t_pmap FSubject (m_field_subject E)) ++
  t_cfg (f_comments E) (t_pmap FComments (m_field_comments E)) ++
  t_cfg (f_mime E) (t_pmap (fun '(a, b) => FMimeVersion a b) (m_mime_version E)) ++
  t_cfg (f_mime E) (t_pmap (fun '(t, s, p) => FContentType t s p) (m_content_type E)) ++
  t_cfg (f_mime E) (t_pmap FContentTransferEncoding (m_content_transfer_encoding E)) ++
  t_cfg (f_mime E) (t_pmap FContentId (m_content_id E)) ++
  t_cfg (f_mime E) (t_pmap FContentDescription (m_content_description E)) ++
  t_cfg (f_mime E) (t_pmap FContentDisposition (m_content_disposition E)) ++
  t_cfg (f_keywords E) (t_pmap FKeywords (m_field_keywords E)) ++
  [ t_pmap (fun '(n, v) => FUnknown n v) (m_unknown E) ].
(* fields.rs:108-162 *)
Definition m_any_field (E : env) : timed_parser field := t_match_parsers (m_field_parsers E).
(* fields.rs:75-168 *)
Definition m_fields (E : env) : timed_parser (list field) := fun i =>
  let+ (i, t) := if f_trace E then t_many (m_trace_block E) i else t_ok (i, []) in
  let+ (i, l) := t_many (m_any_field E) i in
  t_ok (i, t ++ l).

(* ---- message.rs, email.rs ---- *)
(* message.rs:118-133 *)
Definition m_mime_body (i : bytes) : timed (option bytes) := t_step 3 (mime_body i).
Definition m_parse_message (E : env) (i : bytes) : timed (list field * option bytes) :=
  let+ (i, fs) := m_fields E i in
  let+ b := m_mime_body i in
  t_ok (fs, b).
(* email.rs:306-386, without the decoding of the body *)
Definition finish_others (E : env) (a : acc) : res unit :=
  let* fr := if f_from E then ok_or (v_from a) (MissingHeader "From") else Ok [] in
  let* da := if f_date E then (let* d := ok_or (v_date a) (MissingHeader "Date") in Ok (Some d)) else Ok None in
  if f_sender E then
    match v_sender a with
    | Some s => Ok tt
    | None => match fr with [m] => Ok tt | _ => Err (MissingHeader "Sender") end
    end
  else Ok tt.
(* email.rs:306-386; `from[0].clone()` in line 316, the body copied and decoded in lines 333-340 *)
Definition m_finish (E : env) (a : acc) (b : option bytes) : timed email :=
  let+ _ := t_step (S match v_from a with Some [m] => mailbox_size m | _ => 0 end) (finish_others E a) in
  let+ _ :=
    match b with
    | Some b => let+ d := t_decode_value E b (match v_cte a with Some e => e | None => SevenBit end) in t_step (length b) (Ok (Some d))
    | None => t_ok None
    end in
  t_step 0 (finish E a b).
(* email.rs:96-388 Email::parse *)
Definition m_parse (E : env) (data : bytes) : timed email :=
  let+ (fs, b) := m_parse_message E data in
  let+ a := t_set_fields acc0 fs in
  m_finish E a b.

(* ---- entity.rs, multipart.rs ---- *)
(* entity.rs:159-186 *)
Definition m_entity_header (E : env) : timed_parser entity_header :=
  t_match_parsers
    [ t_pmap HEncoding (m_content_transfer_encoding E);
      t_pmap (fun '(t, s, p) => HType t s p) (m_content_type E);
      t_pmap HId (m_content_id E);
      t_pmap HDescription (m_content_description E);
      t_pmap HDisposition (m_content_disposition E);
      t_pmap (fun '(n, v) => HOther n v) (m_unknown E) ].
(* entity.rs:133-234: one for each header stored *)
Definition m_header_part (E : env) (i : bytes) : timed (nat * header_acc) :=
  let+ (i, hs) := t_many (m_entity_header E) i in
  let+ a := t_step (S (length hs)) (Ok (fold_left set_header hs header_acc0)) in
  match i with
  | [] => t_ok (0, a)
  | _ :: _ =>
    let+ (i, _) := t_tag CRLF "TAG ERROR: A MIME entity header part must be followed by a CRLF sequence." i in
    t_ok (length i, a)
  end.
(* entity.rs:7-41. Draining an owned value moves its bytes, and header_part_owned (94-131) copies
   the strings of the headers, which are not longer than the value (times a constant) *)
Definition m_raw_entity (E : env) (i : bytes) : timed raw_entity_t :=
  let+ (len, a) := m_header_part E i in
  let+ n := t_step (S (length i)) (usize_sub (length i) len) in
  let+ v := t_step 0 (index_from i n) in
  let enc := match h_encoding a with Some e => e | None => SevenBit end in
  let '(t, s, p) := match h_type a with Some x => x | None => default_content_type end in
  let+ value := t_decode_value E v enc in
  t_ok {| e_mime_type := t; e_subtype := s; e_description := h_description a; e_id := h_id a;
          e_parameters := p; e_disposition := h_disposition a; e_value := value;
          e_additional_headers := h_additional a |}.
(* multipart.rs:89-92 *)
Fixpoint m_raw_entities (E : env) (parts : list bytes) : timed (list raw_entity_t) :=
  match parts with
  | [] => t_step 1 (Ok [])
  | p :: ps =>
    let+ e := m_raw_entity E p in
    let+ es := m_raw_entities E ps in
    t_step 1 (Ok (e :: es))
  end.
(* multipart.rs:77-95 *)
Definition m_parse_multipart (E : env) (i : bytes) (parameters : list (bytes * bytes)) : timed (list raw_entity_t) :=
  let+ boundary := t_step 1 (ok_or (map_get parameters (bs "boundary")) (Unknown "Missing boundary parameter")) in
  let+ parts := t_split_parts boundary i in
  m_raw_entities E parts.
(* entity.rs:43-92 (RawEntity::parse, mime.rs:27-29) *)
Definition m_entity (E : env) (r : raw_entity_t) : timed entity_t :=
  match e_mime_type r with
  | CMultipart =>
    let+ content := m_parse_multipart E (e_value r) (e_parameters r) in
    t_ok (EMultipart (e_subtype r) content)
  | CText =>
    match map_get (e_parameters r) (bs "charset") with
    | Some charset =>
      let+ charset := t_step (S (length charset)) (Ok (lowercase charset)) in
      match find_charset charset with
      | Some k => let+ v := m_decode_charset E k (e_value r) in t_ok (EText (e_subtype r) v)
      | None => t_ok EUnknown
      end
    | None => t_ok EUnknown
    end
  | _ => t_step 1 (Ok EUnknown)
  end.

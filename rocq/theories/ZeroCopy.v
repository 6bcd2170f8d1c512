(* The parsers once more, with their strings as `Cow<str>`.
   Elsewhere in the model a string is its bytes; here it is what the code builds: a slice of the
   input (address and length) or an owned copy, put together by string.rs (StringCow.v). The input
   is a slice at address [base] with [total] bytes. Every parser is called on a tail of it, so the
   address of an argument follows from its length ([here]). Parsers without strings in their
   result (tag, date_time, mime_version, the check of the body lines) are those of the model, although
   some of them read blanks, comments or tokens and drop the string they get. *)
From Verif Require Import Base Utf8 CharSets Combinators StringCow Whitespace QuotedString Base64 QuotedPrintable EncodedWord Common Time Address Percent MimeFields Fields Message Entity Email.

Record place := {
  memory : mem;
  base : N;
  total : nat;
  (* the address of the literal "" in string.rs:5 *)
  literal : N
}.

(* `&str` *)
Definition str_slice := (N * nat)%type.
(* `Cow::Borrowed(s)` *)
Definition borrow (s : str_slice) : cow := let (p, n) := s in Borrowed p n.

(* address.rs:1-22 *)
Record z_email_address := { z_local_part : cow; z_domain : cow }.
Record z_mailbox_t := { z_name : option (list cow); z_address : z_email_address }.
Inductive z_address_t :=
| ZMailbox (b : z_mailbox_t)
| ZGroup (g : list cow * list z_mailbox_t).

(* fields.rs:8-17 *)
Inductive z_trace_field :=
| ZTDate (d : date_time_t)
| ZTFrom (l : list z_mailbox_t)
| ZTSender (b : z_mailbox_t)
| ZTTo (l : list z_address_t)
| ZTCc (l : list z_address_t)
| ZTBcc (l : list z_address_t)
| ZTMessageId (id : cow * cow).

(* fields.rs:530-535 *)
Inductive z_received_token :=
| ZWord (w : cow)
| ZAddr (a : z_email_address)
| ZDomain (d : cow).

(* mime.rs:52-62: one of the types without a string, or the name of another one *)
Inductive z_content_type_t :=
| ZKnown (t : content_type_t)
| ZOther (name : cow).
(* mime.rs:85-98 *)
Inductive z_disposition_type_t :=
| ZDInline
| ZDAttachment
| ZDUnknown (name : cow).
(* HashMap<Cow<str>, V>: each key with its bytes, by which it is found *)
Definition z_map (V : Type) := list (bytes * (cow * V)).
(* mime.rs:118-129 *)
Record z_disposition_t := {
  z_disposition_type : z_disposition_type_t;
  z_filename : option cow;
  z_creation_date : option date_time_t;
  z_modification_date : option date_time_t;
  z_read_date : option date_time_t;
  z_unstructured_params : z_map cow
}.

(* fields.rs:19-73 *)
Inductive z_field :=
| ZDate (d : date_time_t)
| ZFrom (l : list z_mailbox_t)
| ZSender (b : z_mailbox_t)
| ZReplyTo (l : list z_address_t)
| ZTo (l : list z_address_t)
| ZCc (l : list z_address_t)
| ZBcc (l : list z_address_t)
| ZMessageId (id : cow * cow)
| ZInReplyTo (ids : list (cow * cow))
| ZReferences (ids : list (cow * cow))
| ZSubject (s : cow)
| ZComments (s : cow)
| ZKeywords (l : list (list cow))
| ZMimeVersion (major minor : N)
| ZContentType (t : z_content_type_t) (subtype : cow) (parameters : z_map cow)
| ZContentTransferEncoding (e : encoding_t)
| ZContentId (id : cow * cow)
| ZContentDescription (d : cow)
| ZContentDisposition (d : z_disposition_t)
| ZTrace (return_path : option (option z_email_address))
         (received : list (list z_received_token * date_time_t))
         (fields : list z_trace_field)
| ZUnknown (name : str_slice) (value : cow).

Section Place.
Variable M : place.
Notation m := (memory M).

(* the address of a tail of the input *)
Definition here (i : bytes) : N := (base M + N.of_nat (total M - length i))%N.
(* string.rs:3-6 *)
Definition z_empty : cow := empty_string (literal M).

(* combinators.rs:84-100, 102-128: the `&str` in front *)
Definition sliced (p : parser bytes) : parser str_slice := fun i =>
  let* (r, s) := p i in Ok (r, (here i, length s)).
(* the same, as `Cow::Borrowed` *)
Definition borrowed_slice (p : parser bytes) : parser cow := pmap borrow (sliced p).

(* combinators.rs:174-187; simplified: the results are joined (in the same order) after the loop,
   not while it runs *)
Definition z_collect_many (p : parser cow) (i : bytes) : res (bytes * cow) :=
  let* (r, l) := many p i in
  let* s := join m z_empty l in
  Ok (r, s).

(* combinators.rs:220-231 *)
Definition z_collect_pair (p q : parser cow) (i : bytes) : res (bytes * cow) :=
  let* (i, a) := p i in
  let* (i, b) := q i in
  let* s := add_string m a b in
  Ok (i, s).

(* quoted_string.rs:4-28 *)
Definition z_quoted_pair : parser cow := fun i =>
  let* (i, _) := tag [BACKSLASH] "TAG ERROR: A quoted pair must start with a `\`." i in
  match i with
  | c :: _ =>
    if is_vchar c || is_wsp c then
      let* r := unchecked_from i 1 in
      let* s := from_slice m (here i) 1 in
      Ok (r, s)
    else Err (Unknown "The quoted-pair character is no a vchar or a wsp.")
  | [] => Err (Unknown "The quoted-pair has no second character.")
  end.

(* whitespaces.rs:4-28 *)
Definition z_fws : parser cow := fun i =>
  let* (i, before) :=
    optional (pair_p (sliced (take_while is_wsp))
                     (tag CRLF "TAG ERROR: A folding whitespace must end with a `\r\n` sequence.")) i in
  let* (i, (p, n)) := sliced (take_while1 is_wsp) i in
  match before with
  | Some (b, _) => let* s := add_str m (borrow b) p n in Ok (i, s)
  | None => Ok (i, Borrowed p n)
  end.

(* whitespaces.rs:30-57 *)
Fixpoint z_comment_d (depth : nat) (i : bytes) : res (bytes * cow) :=
  match depth with
  | 0 => Crash OutOfFuel
  | S d =>
    let ccontent := match_parsers [borrowed_slice (take_while1 is_ctext); z_quoted_pair; z_comment_d d] in
    let* (i, _) := tag (bs "(") "TAG ERROR: A comment must start with a `(`." i in
    let* (i, _) := ignore_many (pair_p (optional z_fws) ccontent) i in
    let* (i, _) := optional z_fws i in
    let* (i, _) := tag (bs ")") "TAG ERROR: A comment must end with a `)`." i in
    Ok (i, z_empty)
  end.
(* whitespaces.rs:45-57 *)
Definition z_comment : parser cow := fun i => z_comment_d (S (length i)) i.

(* whitespaces.rs:64-71, 75-84 *)
Definition z_fws_comment : parser (option cow) := fun i =>
  let* (i, w) := optional z_fws i in
  let* (i, _) := z_comment i in
  Ok (i, w).
(* `if let Some(s) = w { add_string(&mut output, s) }` *)
Definition add_some (output : cow) (w : option cow) : res cow :=
  match w with Some s => add_string m output s | None => Ok output end.
Fixpoint add_all (output : cow) (l : list (option cow)) : res cow :=
  match l with [] => Ok output | w :: r => let* o := add_some output w in add_all o r end.

(* whitespaces.rs:61-93; as in z_collect_many, what the loop adds is added after it *)
Definition z_real_cfws : parser cow := fun i =>
  let* (i, first) := map_err (z_fws_comment i) (Unknown "Expected at least one comment") in
  let* (i, others) := many z_fws_comment i in
  let* (i, last) := optional z_fws i in
  let* output := add_some z_empty first in
  let* output := add_all output others in
  let* output := add_some output last in
  Ok (i, output).

(* whitespaces.rs:59-96 *)
Definition z_cfws : parser cow := match_parsers [z_real_cfws; z_fws].

(* `if let Ok((input, _cfws)) = cfws(input) { input } else { input }` *)
Definition z_skip_cfws (i : bytes) : res bytes :=
  attempt (z_cfws i) (fun '(r, _) => Ok r) (Ok i).

(* quoted_string.rs:44-66 *)
Definition z_quoted_string_step : parser cow := fun i =>
  let* (i', additionnal_output) := attempt (z_fws i) (fun '(r, s) => let* o := add_string m z_empty s in Ok (r, o)) (Ok (i, z_empty)) in
  attempt (sliced (take_while1 is_qtext) i')
    (fun '(r, (p, n)) => let* o := add_str m additionnal_output p n in Ok (r, o))
    (attempt (z_quoted_pair i') (fun '(r, s) => let* o := add_string m additionnal_output s in Ok (r, o))
       (Err (Unknown "break"))).

(* quoted_string.rs:30-88 *)
Definition z_quoted_string : parser cow := fun i =>
  let* i := z_skip_cfws i in
  if starts_with i [DQUOTE] then
    let* i := index_from i 1 in
    let* (i, output) := z_collect_many z_quoted_string_step i in
    let* (i, output) := attempt (z_fws i) (fun '(r, s) => let* o := add_string m output s in Ok (r, o)) (Ok (i, output)) in
    if starts_with i [DQUOTE] then
      let* i := index_from i 1 in
      let* i := z_skip_cfws i in
      Ok (i, output)
    else Err (Unknown "Quoted string must end with a dquote")
  else Err (Unknown "Quoted string must begin with a dquote").

(* common.rs:17-27 *)
Definition z_atom : parser cow := fun i =>
  let* i := z_skip_cfws i in
  let* (i, a) := map_err (borrowed_slice (take_while1 is_atext) i) (Unknown "Atom required") in
  let* i := z_skip_cfws i in
  Ok (i, a).

(* common.rs:34-44: what one turn of the loop adds to the output, in two steps (38, 40) *)
Definition z_dot_atom_step (E : env) : parser (cow * str_slice) := fun i =>
  if starts_with i (bs ".") then
    let* rest := index_from i 1 in
    let* (r, a) := if f_compatibility_fixes E then sliced (take_while is_atext) rest else sliced (take_while1 is_atext) rest in
    let* dot := from_slice m (here i) 1 in
    Ok (r, (dot, a))
  else Err (Unknown "break").
Fixpoint z_dot_atom_join (output : cow) (l : list (cow * str_slice)) : res cow :=
  match l with
  | [] => Ok output
  | (dot, (p, n)) :: r =>
    let* o := add_string m output dot in
    let* o := add_str m o p n in
    z_dot_atom_join o r
  end.

(* common.rs:29-52 *)
Definition z_dot_atom_text (E : env) : parser cow := fun i =>
  let* (i, first) := borrowed_slice (take_while1 is_atext) i in
  let* (i, others) := many (z_dot_atom_step E) i in
  let* output := z_dot_atom_join first others in
  Ok (i, output).

(* common.rs:54-63 *)
Definition z_dot_atom (E : env) : parser cow := fun i =>
  let* i := z_skip_cfws i in
  let* (i, a) := z_dot_atom_text E i in
  let* i := z_skip_cfws i in
  Ok (i, a).

(* common.rs:65-76 *)
Definition z_word : parser cow := match_parsers [z_atom; z_quoted_string].

(* encoded_headers.rs:46-115: always `Cow::Owned` (or a String turned into one) *)
Definition z_encoded_word (E : env) : parser cow := pmap Owned (encoded_word E).

(* common.rs:79-91 (with mime), common.rs:65-76 (without) *)
Definition z_phrase_word (E : env) : parser cow :=
  if f_mime E then
    match_parsers [ (fun i => let* (i, _) := optional z_fws i in z_encoded_word E i); z_word ]
  else z_word.

(* common.rs:78-103 *)
Definition z_phrase (E : env) : parser (list cow) := many1 (z_phrase_word E).

(* common.rs:106-115 *)
Definition z_unstructured_step : parser cow := fun i =>
  z_collect_pair (fun i => attempt (z_fws i) (fun ra => Ok ra) (Ok (i, z_empty))) (borrowed_slice (take_while1 is_vchar)) i.

(* common.rs:105-122 *)
Definition z_unstructured : parser cow := fun i =>
  let* (i, output) := z_collect_many z_unstructured_step i in
  let* (i, _) := ignore_many (take_while1 is_wsp) i in
  Ok (i, output).

(* common.rs:127-144 *)
Definition z_mime_unstructured_step (E : env) (previous_was_encoded : bool) : parser (cow * bool) := fun i =>
  let* (i, wsp) := attempt (z_fws i) (fun ra => Ok ra) (Ok (i, z_empty)) in
  attempt (z_encoded_word E i)
    (fun '(i, text) => if previous_was_encoded then Ok (i, (text, true)) else let* o := add_string m wsp text in Ok (i, (o, true)))
    (attempt (sliced (take_while1 is_vchar) i)
       (fun '(i, (p, n)) => let* o := add_str m wsp p n in Ok (i, (o, false)))
       (Err (Unknown "No match arm is matching the data"))).

(* combinators.rs:174-187 applied to that closure; the results are joined after the loop *)
Fixpoint z_mime_unstructured_loop (E : env) (n : nat) (previous_was_encoded : bool) (i : bytes) : res (bytes * list cow) :=
  match n with
  | 0 => Crash OutOfFuel
  | S n' =>
    attempt (z_mime_unstructured_step E previous_was_encoded i)
      (fun '(i, (text, flag)) =>
         let* (r, rest) := z_mime_unstructured_loop E n' flag i in Ok (r, text :: rest))
      (Ok (i, []))
  end.

(* common.rs:124-151 *)
Definition z_mime_unstructured (E : env) : parser cow := fun i =>
  let* (i, l) := z_mime_unstructured_loop E (S (length i)) false i in
  let* output := join m z_empty l in
  let* (i, _) := ignore_many (take_while1 is_wsp) i in
  Ok (i, output).

(* parsing/address.rs:6-19 *)
Definition z_no_fold_litteral : parser cow := fun i =>
  let* (i, _) := tag (bs "[") "TAG ERROR: In message_id, a no_fold_litteral domain must be preceded by a `[`." i in
  let* (i, d) := borrowed_slice (take_while is_dtext) i in
  let* (i, _) := tag (bs "]") "TAG ERROR: In message_id, a no_fold_litteral domain must be closed by a `]`." i in
  Ok (i, d).

(* parsing/address.rs:5-42 *)
Definition z_message_id (E : env) : parser (cow * cow) := fun i =>
  let* (i, _) := optional z_cfws i in
  let* (i, _) := tag (bs "<") "TAG ERROR: A message ID must start with a `<`." i in
  let* (i, id_left) := z_dot_atom_text E i in
  let* (i, _) := tag (bs "@") "TAG ERROR: A message ID right part must be followed by a `@`." i in
  let* (i, id_right) := match_parsers [z_dot_atom_text E; z_no_fold_litteral] i in
  let* (i, _) := tag (bs ">") "TAG ERROR: A message ID left part must be followed by a `>`." i in
  let* (i, _) := optional z_cfws i in
  Ok (i, (id_left, id_right)).

(* parsing/address.rs:81-83 *)
Definition z_local (E : env) : parser cow := match_parsers [z_dot_atom E; z_quoted_string].

(* parsing/address.rs:97-106 *)
Definition z_domain_literal_step : parser cow := fun i =>
  let* (i, _) := optional z_fws i in
  borrowed_slice (take_while1 is_dtext) i.

(* parsing/address.rs:89-115; add_str of a slice is add_string of the slice (string.rs:14-70) *)
Definition z_domain_literal : parser cow := fun i =>
  let* (i, _) := optional z_cfws i in
  let* (i, _) := tag (bs "[") "TAG ERROR: A domain litteral must be preceded by a `[`." i in
  let* (i, output) := z_collect_many z_domain_literal_step i in
  let* (i, _) := optional z_fws i in
  let* (i, _) := tag (bs "]") "TAG ERROR: A domain litteral must be followed by a `]`." i in
  let* (i, _) := optional z_cfws i in
  Ok (i, output).

(* parsing/address.rs:85-87 *)
Definition z_domain_p (E : env) : parser cow := match_parsers [z_dot_atom E; z_domain_literal].

(* parsing/address.rs:44-53 *)
Definition z_addr_spec (E : env) : parser z_email_address := fun i =>
  let* (i, l) := z_local E i in
  let* (i, _) := tag (bs "@") "TAG ERROR: An address local part must be followed by a `@`." i in
  let* (i, d) := z_domain_p E i in
  Ok (i, {| z_local_part := l; z_domain := d |}).

(* parsing/address.rs:55-66 *)
Definition z_angle_addr (E : env) : parser z_email_address := fun i =>
  let* (i, _) := optional z_cfws i in
  let* (i, _) := tag (bs "<") "TAG ERROR: A angle_addr must start with a `<`." i in
  let* (i, a) := z_addr_spec E i in
  let* (i, _) := tag (bs ">") "TAG ERROR: A angle_addr must end with a `>`." i in
  let* (i, _) := optional z_cfws i in
  Ok (i, a).

(* parsing/address.rs:68-79 *)
Definition z_name_addr (E : env) : parser z_mailbox_t := fun i =>
  let* (i, n) := optional (z_phrase E) i in
  let* (i, a) := z_angle_addr E i in
  Ok (i, {| z_name := n; z_address := a |}).

(* parsing/address.rs:117-135 *)
Definition z_mailbox (E : env) : parser z_mailbox_t :=
  match_parsers [ z_name_addr E; pmap (fun a => {| z_name := None; z_address := a |}) (z_addr_spec E) ].

(* parsing/address.rs:137-148 *)
Definition z_mailbox_list (E : env) : parser (list z_mailbox_t) := fun i =>
  let* (i, b) := z_mailbox E i in
  let* (i, l) := many (prefixed (z_mailbox E) (bs ",")) i in
  Ok (i, b :: l).

(* parsing/address.rs:150-175 *)
Definition z_group (E : env) : parser (list cow * list z_mailbox_t) := fun i =>
  let* (i, n) := z_phrase E i in
  let* (i, _) := tag (bs ":") "TAG ERROR: A group display name must be followed by a `:`." i in
  let* (i, l) := attempt (z_mailbox_list E i) (fun ra => Ok ra)
                   (attempt (z_cfws i) (fun '(i', _) => Ok (i', [])) (Ok (i, []))) in
  let* (i, _) := tag (bs ";") "TAG ERROR: A group mailbox list must be closed by a `;`." i in
  let* (i, _) := optional z_cfws i in
  Ok (i, (n, l)).

(* parsing/address.rs:177-185 *)
Definition z_address_p (E : env) : parser z_address_t := fun i =>
  attempt (z_mailbox E i) (fun '(i, b) => Ok (i, ZMailbox b))
    (attempt (z_group E i) (fun '(i, g) => Ok (i, ZGroup g))
       (Err (Unknown "Invalid address: not a mailbox nor a group"))).

(* parsing/address.rs:187-198 *)
Definition z_address_list (E : env) : parser (list z_address_t) := fun i =>
  let* (i, a) := z_address_p E i in
  let* (i, l) := many (prefixed (z_address_p E) (bs ",")) i in
  Ok (i, a :: l).

(* fields.rs:187-202 *)
Definition z_field_from (E : env) : parser (list z_mailbox_t) :=
  header E "From:" "fROM:" "TAG NO CASE ERROR: Header name (From) does not match."
    (z_mailbox_list E) "TAG ERROR: A header (`From` in this case) must end with a CRLF sequence.".
(* fields.rs:204-219 *)
Definition z_field_sender (E : env) : parser (z_mailbox_t) :=
  header E "Sender:" "sENDER:" "TAG NO CASE ERROR: Header name (Sender) does not match."
    (z_mailbox E) "TAG ERROR: A header (`Sender` in this case) must end with a CRLF sequence.".
(* fields.rs:221-236 *)
Definition z_field_reply_to (E : env) : parser (list z_address_t) :=
  header E "Reply-To:" "rEPLY-tO:" "TAG NO CASE ERROR: Header name (Reply-To) does not match."
    (z_address_list E) "TAG ERROR: A header (`Reply-To` in this case) must end with a CRLF sequence.".
(* fields.rs:238-253 *)
Definition z_field_to (E : env) : parser (list z_address_t) :=
  header E "To:" "tO:" "TAG NO CASE ERROR: Header name (To) does not match."
    (z_address_list E) "TAG ERROR: A header (`To` in this case) must end with a CRLF sequence.".
(* fields.rs:255-270 *)
Definition z_field_cc (E : env) : parser (list z_address_t) :=
  header E "Cc:" "cC:" "TAG NO CASE ERROR: Header name (Cc) does not match."
    (z_address_list E) "TAG ERROR: A header (`Cc` in this case) must end with a CRLF sequence.".
(* fields.rs:279-285 *)
Definition z_bcc_value (E : env) : parser (list z_address_t) := fun i =>
  attempt (z_address_list E i) (fun ra => Ok ra)
    (attempt (z_cfws i) (fun '(i, _) => Ok (i, []))
       (Err (Unknown "Invalid bcc field"))).
(* fields.rs:272-293 *)
Definition z_field_bcc (E : env) : parser (list z_address_t) :=
  header E "Bcc:" "bCC:" "TAG NO CASE ERROR: Header name (Bcc) does not match."
    (z_bcc_value E) "TAG ERROR: A header (`Bcc` in this case) must end with a CRLF sequence.".
(* fields.rs:295-310 *)
Definition z_field_message_id (E : env) : parser (cow * cow) :=
  header E "Message-ID:" "mESSAGE-id:" "TAG NO CASE ERROR: Header name (Message-ID) does not match."
    (z_message_id E) "TAG ERROR: A header (`Message-ID` in this case) must end with a CRLF sequence.".
(* fields.rs:312-327 *)
Definition z_field_in_reply_to (E : env) : parser (list (cow * cow)) :=
  header E "In-Reply-To:" "iN-rEPLY-tO:" "TAG NO CASE ERROR: Header name (Reply-To) does not match."
    (many1 (z_message_id E)) "TAG ERROR: A header (`In-Reply-To` in this case) must end with a CRLF sequence.".
(* fields.rs:329-344 *)
Definition z_field_references (E : env) : parser (list (cow * cow)) :=
  header E "References:" "rEFERENCES:" "TAG NO CASE ERROR: Header name (References) does not match."
    (many1 (z_message_id E)) "TAG ERROR: A header (`References` in this case) must end with a CRLF sequence.".
(* fields.rs:353-356, 373-376 *)
Definition z_text_value (E : env) : parser cow :=
  if f_mime E then z_mime_unstructured E else z_unstructured.
(* fields.rs:346-364 *)
Definition z_field_subject (E : env) : parser (cow) :=
  header E "Subject:" "sUBJECT:" "TAG NO CASE ERROR: Header name (Subject) does not match."
    (z_text_value E) "TAG ERROR: A header (`Subject` in this case) must end with a CRLF sequence.".
(* fields.rs:366-384 *)
Definition z_field_comments (E : env) : parser (cow) :=
  header E "Comments:" "cOMMENTS:" "TAG NO CASE ERROR: Header name (Comments) does not match."
    (z_text_value E) "TAG ERROR: A header (`Comments` in this case) must end with a CRLF sequence.".
(* fields.rs:394-401 *)
Definition z_keywords_value (E : env) : parser (list (list cow)) := fun i =>
  let* (i, k) := z_phrase E i in
  let* (i, l) := many (prefixed (z_phrase E) (bs ",")) i in
  Ok (i, k :: l).
(* fields.rs:386-410 *)
Definition z_field_keywords (E : env) : parser (list (list cow)) :=
  header E "Keywords:" "kEYWORDS:" "TAG NO CASE ERROR: Header name (Keywords) does not match."
    (z_keywords_value E) "TAG ERROR: A header (`Keywords` in this case) must end with a CRLF sequence.".

(* fields.rs:83-94 with 412-494 *)
Definition z_resent_field (E : env) : parser z_trace_field :=
  match_parsers
    [ pmap ZTDate (resent E "TAG NO CASE ERROR: Header name (Resent-Date) does not match." (field_date E));
      pmap ZTFrom (resent E "TAG NO CASE ERROR: Header name (Resent-From) does not match." (z_field_from E));
      pmap ZTSender (resent E "TAG NO CASE ERROR: Header name (Resent-Sender) does not match." (z_field_sender E));
      pmap ZTTo (resent E "TAG NO CASE ERROR: Header name (Resent-To) does not match." (z_field_to E));
      pmap ZTCc (resent E "TAG NO CASE ERROR: Header name (Resent-Cc) does not match." (z_field_cc E));
      pmap ZTBcc (resent E "TAG NO CASE ERROR: Header name (Resent-Bcc) does not match." (z_field_bcc E));
      pmap ZTMessageId (resent E "TAG NO CASE ERROR: Header name (Resent-Message-ID) does not match." (z_field_message_id E)) ].

(* fields.rs:497-504 *)
Definition z_empty_path : parser unit := fun i =>
  let* (i, _) := optional z_cfws i in
  let* (i, _) := tag (bs "<") "TAG ERROR: An empty path must start with `<`." i in
  let* (i, _) := optional z_cfws i in
  let* (i, _) := tag (bs ">") "TAG ERROR: An empty path must end with `>`." i in
  let* (i, _) := optional z_cfws i in
  Ok (i, tt).

(* fields.rs:512-520 *)
Definition z_return_path_value (E : env) : parser (option z_email_address) :=
  match_parsers [ pmap Some (z_angle_addr E); pmap (fun _ : unit => None) z_empty_path ].

(* fields.rs:496-528 *)
Definition z_return_path (E : env) : parser (option z_email_address) :=
  header E "Return-Path:" "rETURN-pATH:" "TAG NO CASE ERROR: Header name (Return-Path) does not match."
    (z_return_path_value E) "TAG ERROR: A header (`Return-Path` in this case) must end with a CRLF sequence.".

(* Deref and len of a Cow *)
Definition cow_len (c : cow) : nat := match c with Borrowed _ n => n | Owned s => length s end.
(* fields.rs:544-561 *)
Definition z_received_token_parser (E : env) : parser z_received_token := fun i =>
  attempt (z_word i)
    (fun '(word_input, w) =>
       attempt (z_domain_p E i)
         (fun '(domain_input, d) =>
            if cow_len w <? cow_len d then Ok (domain_input, ZDomain d) else Ok (word_input, ZWord w))
         (Ok (word_input, ZWord w)))
    (attempt (z_angle_addr E i) (fun '(i, a) => Ok (i, ZAddr a))
       (attempt (z_addr_spec E i) (fun '(i, a) => Ok (i, ZAddr a))
          (attempt (z_domain_p E i) (fun '(i, d) => Ok (i, ZDomain d))
             (Err (Unknown "match error"))))).

(* fields.rs:544-567 *)
Definition z_received_value (E : env) : parser (list z_received_token * date_time_t) := fun i =>
  let* (i, tokens) := many (z_received_token_parser E) i in
  let* (i, _) := tag (bs ";") "TAG ERROR: Received tokens must be followed by a `;`." i in
  let* (i, d) := date_time E i in
  Ok (i, (tokens, d)).

(* fields.rs:537-575 *)
Definition z_received (E : env) : parser (list z_received_token * date_time_t) :=
  header E "Received:" "rECEIVED:" "TAG NO CASE ERROR: Header name (Received) does not match."
    (z_received_value E) "TAG ERROR: A header (`Received` in this case) must end with a CRLF sequence.".

(* fields.rs:577-587 *)
Definition z_trace (E : env) : parser (option (option z_email_address) * list (list z_received_token * date_time_t)) := fun i =>
  let* (i, rp) := optional (z_return_path E) i in
  let* (i, rc) := many1 (z_received E) i in
  Ok (i, (rp, rc)).

(* fields.rs:589-608 *)
Definition z_unknown (E : env) : parser (str_slice * cow) := fun i =>
  let* (i, name) := sliced (take_while1 is_ftext) i in
  let* (i, _) := tag (bs ":") "TAG ERROR: A header name must be followed by a `:`." i in
  let* (i, value) := (if f_unrecognized_headers E then z_mime_unstructured E else z_unstructured) i in
  let* (i, _) := tag CRLF "TAG ERROR: A header must end with a CRLF sequence." i in
  Ok (i, (name, value)).

(* fields.rs:79-105 *)
Definition z_trace_block (E : env) : parser z_field := fun i =>
  let* (i, (rp, rc)) := z_trace E i in
  let* (i, l) := many (z_resent_field E) i in
  Ok (i, ZTrace rp rc l).

(* -- mime.rs and parsing/mime/mime_fields.rs -- *)
(* mime_fields.rs:17-22 *)
Definition z_token : parser cow := borrowed_slice token.

(* common.rs:4-15. It is applied to tokens, which are ASCII: there a char is_uppercase exactly if it is
   one of A to Z *)
Definition z_lowercase (c : cow) : res cow :=
  let* s := contents m c in
  if existsb is_upper s then Ok (Owned (lowercase s)) else Ok c.
(* `token(input)?` and then `lowercase` *)
Definition z_lower_token : parser cow := fun i =>
  let* (i, t) := z_token i in
  let* t := z_lowercase t in
  Ok (i, t).

(* mime_fields.rs:78-118: the name is the `&str` in front *)
Definition z_indexed_name : parser (cow * option N * bool) := fun i =>
  let* (r, (name, index, encoded)) := indexed_name i in
  Ok (r, (Borrowed (here i) (length name), index, encoded)).

(* a parsed parameter: (name, index, encoded, value) *)
Definition z_param := (cow * option N * bool * cow)%type.

(* mime_fields.rs:67-145 *)
Definition z_parameter : parser z_param := fun i =>
  let* (i, _) := optional z_cfws i in
  let* (i, _) := tag (bs ";") "TAG ERROR: A MIME parameter must start with `;`." i in
  let* (i, _) := optional z_cfws i in
  let* (i, (name, index, encoded)) :=
    match_parsers [ z_indexed_name; pmap (fun name => (name, None, false)) z_token ] i in
  let* name := z_lowercase name in
  let* (i, _) := tag (bs "=") "TAG ERROR: A MIME parameter name must be followed by a `=`." i in
  let* (i, value) := match_parsers [ z_token; z_quoted_string ] i in
  Ok (i, (name, index, encoded, value)).

(* HashMap::insert: a key that is there already stays *)
Fixpoint z_insert {V} (l : z_map V) (k : bytes) (c : cow) (v : V) : z_map V :=
  match l with
  | [] => [(k, (c, v))]
  | (k', (c', v')) :: r => if bytes_eqb k k' then (k', (c', v)) :: r else (k', (c', v')) :: z_insert r k c v
  end.
(* HashMap<u8, (bool, Cow<str>)> *)
Fixpoint z_imap_insert (l : list (N * (bool * cow))) (k : N) (v : bool * cow) : list (N * (bool * cow)) :=
  match l with
  | [] => [(k, v)]
  | (k', v') :: r => if (k =? k')%N then (k', v) :: r else (k', v') :: z_imap_insert r k v
  end.
Fixpoint z_imap_remove (l : list (N * (bool * cow))) (k : N) : option ((bool * cow) * list (N * (bool * cow))) :=
  match l with
  | [] => None
  | (k', v') :: r =>
    if (k =? k')%N then Some (v', r)
    else match z_imap_remove r k with
         | Some (v, r) => Some (v, (k', v') :: r)
         | None => None
         end
  end.

(* percent_encoding.rs:103-115 *)
Fixpoint z_split_parameters (l : list z_param) (plain : z_map cow) (complex : z_map (list (N * (bool * cow))))
  : res (z_map cow * z_map (list (N * (bool * cow)))) :=
  match l with
  | [] => Ok (plain, complex)
  | (name, index, encoded, value) :: l' =>
    let* k := contents m name in
    match index with
    | Some index =>
      let vs := match map_get complex k with Some (_, vs) => vs | None => [] end in
      z_split_parameters l' plain (z_insert complex k name (z_imap_insert vs index (encoded, value)))
    | None => z_split_parameters l' (z_insert plain k name value) complex
    end
  end.

(* percent_encoding.rs:118-163: an encoded value is decoded into a new String; its charset, a Cow, is
   dropped at the end and is given by its bytes *)
Definition z_first_segment (E : env) (encoded : bool) (value : cow) : res (cow * option bytes) :=
  if encoded then
    let* v := contents m value in
    let* (v, charset) := first_segment E true v in
    Ok (Owned v, charset)
  else Ok (value, None).

(* percent_encoding.rs:165-179 *)
Fixpoint z_next_segments (E : env) (n : nat) (values : list (N * (bool * cow))) (charset : option bytes)
    (idx : N) (value : cow) : res cow :=
  match n with
  | O => Crash OutOfFuel
  | S n' =>
    match z_imap_remove values idx with
    | None => Ok value
    | Some ((encoded, new_value), values) =>
      let* value :=
        match encoded, charset with
        | true, Some c =>
          let* v := contents m new_value in
          let* d := decode_parameter E v c in
          add_string m value (Owned d)
        | _, _ => add_string m value new_value
        end in
      let* idx := u8_add E idx 1 in
      z_next_segments E n' values charset idx value
    end
  end.

(* percent_encoding.rs:117-182, for one name *)
Definition z_join_segments (E : env) (values : list (N * (bool * cow))) : res (option cow) :=
  match z_imap_remove values 0 with
  | None => Ok None
  | Some ((encoded, value), values) =>
    let* (value, charset) := z_first_segment E encoded value in
    let* v := z_next_segments E (S (length values)) values charset 1 value in
    Ok (Some v)
  end.

(* percent_encoding.rs:116-183; the new keys are copies (181) *)
Fixpoint z_join_all (E : env) (names : list bytes) (complex : z_map (list (N * (bool * cow)))) (parameters : z_map cow)
  : res (z_map cow) :=
  match names with
  | [] => Ok parameters
  | name :: names' =>
    match map_get complex name with
    | None => z_join_all E names' complex parameters
    | Some (_, values) =>
      let* v := z_join_segments E values in
      let parameters := match v with Some v => z_insert parameters name (Owned name) v | None => parameters end in
      z_join_all E names' complex parameters
    end
  end.

(* percent_encoding.rs:98-185 *)
Definition z_collect_parameters (E : env) (l : list z_param) : res (z_map cow) :=
  let* (plain, complex) := z_split_parameters l [] [] in
  z_join_all E (hash_order E (map fst complex)) complex plain.

(* mime_fields.rs:156-225 *)
Definition z_mime_type (E : env) : parser z_content_type_t :=
  let known e1 e2 msg t := pmap (fun _ : unit => ZKnown t) (tag_no_case E (bs e1) (bs e2) msg) in
  match_parsers
    [ known "text" "TEXT" "TAG NO CASE ERROR: In a content type header, `text` type does not match." CText;
      known "multipart" "MULTIPART" "TAG NO CASE ERROR: In a content type header, `multipart` type does not match." CMultipart;
      known "application" "APPLICATION" "TAG NO CASE ERROR: In a content type header, `application` type does not match." CApplication;
      known "image" "IMAGE" "TAG NO CASE ERROR: In a content type header, `image` type does not match." CImage;
      known "video" "VIDEO" "TAG NO CASE ERROR: In a content type header, `video` type does not match." CVideo;
      known "audio" "AUDIO" "TAG NO CASE ERROR: In a content type header, `audio` type does not match." CAudio;
      known "message" "MESSAGE" "TAG NO CASE ERROR: In a content type header, `message` type does not match." CMessage;
      pmap ZOther z_lower_token ]%string.

(* mime_fields.rs:147-245 *)
Definition z_content_type (E : env) : parser (z_content_type_t * cow * z_map cow) := fun i =>
  let* (i, _) := tag_no_case E (bs "Content-Type:") (bs "cONTENT-tYPE:")
    "TAG NO CASE ERROR: Header name (Content-Type) does not match." i in
  let* (i, _) := optional z_cfws i in
  let* (i, t) := z_mime_type E i in
  let* (i, _) := tag (bs "/") "TAG ERROR: A MIME content type must have a `/` separating the type and the subtype." i in
  let* (i, subtype) := z_lower_token i in
  let* (i, parameters_vec) := many z_parameter i in
  let* parameters := z_collect_parameters E parameters_vec in
  let* (i, _) := ignore_inline_cfws i in
  let* (i, _) := tag CRLF "TAG ERROR: A header (`Content-Type` in this case) must end with a CRLF sequence." i in
  Ok (i, (t, subtype, parameters)).

(* mime_fields.rs:288-307 *)
Definition z_filename_parameter (E : env) : parser cow := fun i =>
  let* (i, _) := optional z_cfws i in
  let* (i, _) := tag (bs ";") "TAG ERROR: In a Content-Disposition header, a filename parameter must start with a `;`." i in
  let* (i, _) := optional z_cfws i in
  let* (i, _) := tag_no_case E (bs "filename") (bs "FILENAME") "TAG NO CASE ERROR: In a Content-Disposition header, the name of the parameter does not match a filename parameter." i in
  let* (i, _) := tag (bs "=") "TAG ERROR: In a Content-Disposition header, a filename parameter value must be preceded by a `=`." i in
  match_parsers [ z_token; z_quoted_string ] i.

(* mime_fields.rs:309-324 *)
Definition z_date_parameter (E : env) (name name_uppercase : bytes) : parser date_time_t := fun i =>
  let* (i, _) := optional z_cfws i in
  let* (i, _) := tag (bs ";") "TAG ERROR: In a Content-Disposition header, a date parameter must start with a `;`." i in
  let* (i, _) := optional z_cfws i in
  let* (i, _) := tag_no_case E name name_uppercase "TAG NO CASE ERROR: In a Content-Disposition header, the name of the parameter does not match a date parameter." i in
  let* (i, _) := tag [61%N; DQUOTE] "TAG ERROR: In a Content-Disposition header, a date parameter value must be preceded by `=""`." i in
  let* (i, value) := date_time E i in
  let* (i, _) := tag [DQUOTE] "TAG ERROR: In a Content-Disposition header, a date parameter value must be closed by a `""`." i in
  Ok (i, value).

(* what one turn of the loop mime_fields.rs:287-348 stores *)
Inductive z_disposition_item :=
| ZDFilename (v : cow)
| ZDCreation (d : date_time_t)
| ZDModification (d : date_time_t)
| ZDRead (d : date_time_t)
| ZDParam (p : z_param).

(* mime_fields.rs:326-347 *)
Definition z_disposition_item_parser (E : env) : parser z_disposition_item :=
  match_parsers
    [ pmap ZDFilename (z_filename_parameter E);
      pmap ZDCreation (z_date_parameter E (bs "creation-date") (bs "CREATION-DATE"));
      pmap ZDModification (z_date_parameter E (bs "modification-date") (bs "MODIFICATION-DATE"));
      pmap ZDRead (z_date_parameter E (bs "read-date") (bs "READ-DATE"));
      pmap ZDParam z_parameter ].

(* the assignments of mime_fields.rs:326-347: the last value wins *)
Definition z_set_item (d : z_disposition_t) (x : z_disposition_item) : z_disposition_t :=
  match x with
  | ZDFilename v => {| z_disposition_type := z_disposition_type d; z_filename := Some v;
      z_creation_date := z_creation_date d; z_modification_date := z_modification_date d;
      z_read_date := z_read_date d; z_unstructured_params := z_unstructured_params d |}
  | ZDCreation v => {| z_disposition_type := z_disposition_type d; z_filename := z_filename d;
      z_creation_date := Some v; z_modification_date := z_modification_date d;
      z_read_date := z_read_date d; z_unstructured_params := z_unstructured_params d |}
  | ZDModification v => {| z_disposition_type := z_disposition_type d; z_filename := z_filename d;
      z_creation_date := z_creation_date d; z_modification_date := Some v;
      z_read_date := z_read_date d; z_unstructured_params := z_unstructured_params d |}
  | ZDRead v => {| z_disposition_type := z_disposition_type d; z_filename := z_filename d;
      z_creation_date := z_creation_date d; z_modification_date := z_modification_date d;
      z_read_date := Some v; z_unstructured_params := z_unstructured_params d |}
  | ZDParam _ => d
  end.

(* the parameters pushed on parameters_vec, mime_fields.rs:342-344 *)
Definition z_item_params (l : list z_disposition_item) : list z_param :=
  flat_map (fun x => match x with ZDParam p => [p] | _ => [] end) l.

(* mime_fields.rs:258-276 *)
Definition z_disposition_kind (E : env) : parser z_disposition_type_t :=
  match_parsers
    [ pmap (fun _ : unit => ZDInline) (tag_no_case E (bs "inline") (bs "INLINE") "TAG NO CASE ERROR: In a content disposition header, `inline` disposition does not match.");
      pmap (fun _ : unit => ZDAttachment) (tag_no_case E (bs "attachment") (bs "ATTACHMENT") "TAG NO CASE ERROR: In a content disposition header, `attachment` disposition does not match.");
      pmap ZDUnknown z_lower_token ].

(* mime_fields.rs:247-359 *)
Definition z_content_disposition (E : env) : parser z_disposition_t := fun i =>
  let* (i, _) := tag_no_case E (bs "Content-Disposition:") (bs "cONTENT-dISPOSITION:")
    "TAG NO CASE ERROR: Header name (Content-Disposition) does not match." i in
  let* (i, _) := optional z_cfws i in
  let* (i, kind) := z_disposition_kind E i in
  let* (i, items) := many (z_disposition_item_parser E) i in
  let* params := z_collect_parameters E (z_item_params items) in
  let* (i, _) := ignore_inline_cfws i in
  let* (i, _) := tag CRLF "TAG ERROR: A header (`Content-Disposition` in this case) must end with a CRLF sequence." i in
  Ok (i, fold_left z_set_item items
           {| z_disposition_type := kind; z_filename := None; z_creation_date := None;
              z_modification_date := None; z_read_date := None; z_unstructured_params := params |}).

(* mime_fields.rs:408-423 *)
Definition z_content_id (E : env) : parser (cow * cow) := fun i =>
  let* (i, _) := tag_no_case E (bs "Content-ID:") (bs "cONTENT-id:")
    "TAG NO CASE ERROR: Header name (Content-ID) does not match." i in
  let* (i, id) := z_message_id E i in
  let* (i, _) := tag CRLF "TAG ERROR: A header (`Content-ID` in this case) must end with a CRLF sequence." i in
  Ok (i, id).

(* mime_fields.rs:425-440 *)
Definition z_content_description (E : env) : parser cow := fun i =>
  let* (i, _) := tag_no_case E (bs "Content-Description:") (bs "cONTENT-dESCRIPTION:")
    "TAG NO CASE ERROR: Header name (Content-Description) does not match." i in
  let* (i, d) := z_mime_unstructured E i in
  let* (i, _) := tag CRLF "TAG ERROR: A header (`Content-Description` in this case) must end with a CRLF sequence." i in
  Ok (i, d).

(* fields.rs:110-161 *)
Definition z_field_parsers (E : env) : list (parser z_field) :=
  cfg (f_date E) (pmap ZDate (field_date E)) ++
  cfg (f_from E) (pmap ZFrom (z_field_from E)) ++
  cfg (f_sender E) (pmap ZSender (z_field_sender E)) ++
  cfg (f_reply_to E) (pmap ZReplyTo (z_field_reply_to E)) ++
  cfg (f_to E) (pmap ZTo (z_field_to E)) ++
  cfg (f_cc E) (pmap ZCc (z_field_cc E)) ++
  cfg (f_bcc E) (pmap ZBcc (z_field_bcc E)) ++
  cfg (f_message_id E) (pmap ZMessageId (z_field_message_id E)) ++
  cfg (f_in_reply_to E) (pmap ZInReplyTo (z_field_in_reply_to E)) ++
  cfg (f_references E) (pmap ZReferences (z_field_references E)) ++
  cfg (f_subject E) (pmap ZSubject (z_field_subject E)) ++
  cfg (f_comments E) (pmap ZComments (z_field_comments E)) ++
  cfg (f_mime E) (pmap (fun '(a, b) => ZMimeVersion a b) (mime_version E)) ++
  cfg (f_mime E) (pmap (fun '(t, s, p) => ZContentType t s p) (z_content_type E)) ++
  cfg (f_mime E) (pmap ZContentTransferEncoding (content_transfer_encoding E)) ++
  cfg (f_mime E) (pmap ZContentId (z_content_id E)) ++
  cfg (f_mime E) (pmap ZContentDescription (z_content_description E)) ++
  cfg (f_mime E) (pmap ZContentDisposition (z_content_disposition E)) ++
  cfg (f_keywords E) (pmap ZKeywords (z_field_keywords E)) ++
  [ pmap (fun '(n, v) => ZUnknown n v) (z_unknown E) ].

(* fields.rs:108-162 *)
Definition z_any_field (E : env) : parser z_field := match_parsers (z_field_parsers E).

(* fields.rs:75-168 *)
Definition z_fields (E : env) : parser (list z_field) := fun i =>
  let* (i, t) := if f_trace E then many (z_trace_block E) i else Ok (i, []) in
  let* (i, l) := many (z_any_field E) i in
  Ok (i, t ++ l).

(* message.rs:75-108 *)
Definition z_body (i : bytes) : res (option cow) :=
  match i with
  | [] => Ok None
  | _ :: _ =>
    let* (i', _) := tag CRLF "TAG ERROR: Headers must be followed by a CRLF sequence." i in
    let* _ := body_loop (S (length i')) i' in
    let* b := unchecked_from i 2 in
    let* s := from_slice m (here b) (length b) in
    Ok (Some s)
  end.

(* message.rs:118-133 *)
Definition z_mime_body (i : bytes) : res (option cow) :=
  match i with
  | [] => Ok None
  | _ :: _ =>
    let* (i', _) := tag CRLF "TAG ERROR: Headers must be followed by a CRLF sequence." i in
    Ok (Some (Borrowed (here i') (length i')))
  end.

(* message.rs:110-133; with mime the second result is a slice of bytes *)
Definition z_parse_message (E : env) (i : bytes) : res (list z_field * option cow) :=
  let* (i, fs) := z_fields E i in
  let* b := (if f_mime E then z_mime_body i else z_body i) in
  Ok (fs, b).

(* entity.rs:236-254: `Cow<[u8]>` *)
Definition z_decode_value (E : env) (value : cow) (enc : encoding_t) : res cow :=
  match enc with
  | Base64Enc => let* v := contents m value in let* d := decode_base64 E v in Ok (Owned d)
  | SevenBit => Ok value
  | HeightBit => Ok value
  | QuotedPrintableEnc => let* v := contents m value in let* d := decode_qp E v in Ok (Owned d)
  | UnknownEnc _ => Err (Unknown "Unknown format")
  | Binary => Ok value
  end.
End Place.

(* the addresses of the literals: "" in string.rs:5 and email.rs:381 (they need not be the same, but
   the address of an empty slice is never looked at), and "plain", "charset" and "us-ascii" in
   email.rs:327-328 *)
Record literals := { at_empty : N; at_plain : N; at_charset : N; at_ascii : N }.

(* mime.rs:5-21 *)
Record z_raw_entity_t := {
  zr_type : z_content_type_t;
  zr_subtype : cow;
  zr_description : option cow;
  zr_id : option (cow * cow);
  zr_parameters : z_map cow;
  zr_disposition : option z_disposition_t;
  zr_value : cow;
  zr_additional : list (cow * cow)
}.
(* email.rs:325-331 *)
Definition z_default_content_type (l : literals) : z_content_type_t * cow * z_map cow :=
  (ZKnown CText, Borrowed (at_plain l) 5, [(bs "charset", (Borrowed (at_charset l) 7, Borrowed (at_ascii l) 8))]).

(* email.rs:28-94, as in Email.v *)
Record z_email := {
  ze_body : option cow;
  ze_from : list z_mailbox_t;
  ze_sender : option z_mailbox_t;
  ze_subject : option cow;
  ze_date : option date_time_t;
  ze_to : option (list z_address_t);
  ze_cc : option (list z_address_t);
  ze_bcc : option (list z_address_t);
  ze_message_id : option (cow * cow);
  ze_in_reply_to : option (list (cow * cow));
  ze_references : option (list (cow * cow));
  ze_reply_to : option (list z_address_t);
  ze_comments : list cow;
  ze_keywords : list (list cow);
  ze_trace : list (option (option z_email_address) * list (list z_received_token * date_time_t) * list z_trace_field);
  ze_entity : option z_raw_entity_t;
  ze_unknown : list (str_slice * cow)
}.

(* email.rs:101-142 *)
Record z_acc := {
  zv_from : option (list z_mailbox_t);
  zv_sender : option z_mailbox_t;
  zv_subject : option cow;
  zv_date : option date_time_t;
  zv_to : option (list z_address_t);
  zv_cc : option (list z_address_t);
  zv_bcc : option (list z_address_t);
  zv_message_id : option (cow * cow);
  zv_in_reply_to : option (list (cow * cow));
  zv_references : option (list (cow * cow));
  zv_reply_to : option (list z_address_t);
  zv_comments : list cow;
  zv_keywords : list (list cow);
  zv_trace : list (option (option z_email_address) * list (list z_received_token * date_time_t) * list z_trace_field);
  zv_mime_version : option (N * N);
  zv_content_type : option (z_content_type_t * cow * z_map cow);
  zv_cte : option encoding_t;
  zv_content_id : option (cow * cow);
  zv_content_description : option cow;
  zv_content_disposition : option z_disposition_t;
  zv_unknown : list (str_slice * cow)
}.
Definition z_acc0 : z_acc :=
  {| zv_from := None; zv_sender := None; zv_subject := None; zv_date := None; zv_to := None; zv_cc := None; zv_bcc := None; zv_message_id := None; zv_in_reply_to := None; zv_references := None; zv_reply_to := None; zv_comments := []; zv_keywords := []; zv_trace := []; zv_mime_version := None; zv_content_type := None; zv_cte := None; zv_content_id := None; zv_content_description := None; zv_content_disposition := None; zv_unknown := [] |}.
(* assignment to one of the local variables *)
Definition zset_from a x : z_acc :=
  {| zv_from := x; zv_sender := zv_sender a; zv_subject := zv_subject a; zv_date := zv_date a; zv_to := zv_to a; zv_cc := zv_cc a; zv_bcc := zv_bcc a; zv_message_id := zv_message_id a; zv_in_reply_to := zv_in_reply_to a; zv_references := zv_references a; zv_reply_to := zv_reply_to a; zv_comments := zv_comments a; zv_keywords := zv_keywords a; zv_trace := zv_trace a; zv_mime_version := zv_mime_version a; zv_content_type := zv_content_type a; zv_cte := zv_cte a; zv_content_id := zv_content_id a; zv_content_description := zv_content_description a; zv_content_disposition := zv_content_disposition a; zv_unknown := zv_unknown a |}.
Definition zset_sender a x : z_acc :=
  {| zv_from := zv_from a; zv_sender := x; zv_subject := zv_subject a; zv_date := zv_date a; zv_to := zv_to a; zv_cc := zv_cc a; zv_bcc := zv_bcc a; zv_message_id := zv_message_id a; zv_in_reply_to := zv_in_reply_to a; zv_references := zv_references a; zv_reply_to := zv_reply_to a; zv_comments := zv_comments a; zv_keywords := zv_keywords a; zv_trace := zv_trace a; zv_mime_version := zv_mime_version a; zv_content_type := zv_content_type a; zv_cte := zv_cte a; zv_content_id := zv_content_id a; zv_content_description := zv_content_description a; zv_content_disposition := zv_content_disposition a; zv_unknown := zv_unknown a |}.
Definition zset_subject a x : z_acc :=
  {| zv_from := zv_from a; zv_sender := zv_sender a; zv_subject := x; zv_date := zv_date a; zv_to := zv_to a; zv_cc := zv_cc a; zv_bcc := zv_bcc a; zv_message_id := zv_message_id a; zv_in_reply_to := zv_in_reply_to a; zv_references := zv_references a; zv_reply_to := zv_reply_to a; zv_comments := zv_comments a; zv_keywords := zv_keywords a; zv_trace := zv_trace a; zv_mime_version := zv_mime_version a; zv_content_type := zv_content_type a; zv_cte := zv_cte a; zv_content_id := zv_content_id a; zv_content_description := zv_content_description a; zv_content_disposition := zv_content_disposition a; zv_unknown := zv_unknown a |}.
Definition zset_date a x : z_acc :=
  {| zv_from := zv_from a; zv_sender := zv_sender a; zv_subject := zv_subject a; zv_date := x; zv_to := zv_to a; zv_cc := zv_cc a; zv_bcc := zv_bcc a; zv_message_id := zv_message_id a; zv_in_reply_to := zv_in_reply_to a; zv_references := zv_references a; zv_reply_to := zv_reply_to a; zv_comments := zv_comments a; zv_keywords := zv_keywords a; zv_trace := zv_trace a; zv_mime_version := zv_mime_version a; zv_content_type := zv_content_type a; zv_cte := zv_cte a; zv_content_id := zv_content_id a; zv_content_description := zv_content_description a; zv_content_disposition := zv_content_disposition a; zv_unknown := zv_unknown a |}.
Definition zset_to a x : z_acc :=
  {| zv_from := zv_from a; zv_sender := zv_sender a; zv_subject := zv_subject a; zv_date := zv_date a; zv_to := x; zv_cc := zv_cc a; zv_bcc := zv_bcc a; zv_message_id := zv_message_id a; zv_in_reply_to := zv_in_reply_to a; zv_references := zv_references a; zv_reply_to := zv_reply_to a; zv_comments := zv_comments a; zv_keywords := zv_keywords a; zv_trace := zv_trace a; zv_mime_version := zv_mime_version a; zv_content_type := zv_content_type a; zv_cte := zv_cte a; zv_content_id := zv_content_id a; zv_content_description := zv_content_description a; zv_content_disposition := zv_content_disposition a; zv_unknown := zv_unknown a |}.
Definition zset_cc a x : z_acc :=
  {| zv_from := zv_from a; zv_sender := zv_sender a; zv_subject := zv_subject a; zv_date := zv_date a; zv_to := zv_to a; zv_cc := x; zv_bcc := zv_bcc a; zv_message_id := zv_message_id a; zv_in_reply_to := zv_in_reply_to a; zv_references := zv_references a; zv_reply_to := zv_reply_to a; zv_comments := zv_comments a; zv_keywords := zv_keywords a; zv_trace := zv_trace a; zv_mime_version := zv_mime_version a; zv_content_type := zv_content_type a; zv_cte := zv_cte a; zv_content_id := zv_content_id a; zv_content_description := zv_content_description a; zv_content_disposition := zv_content_disposition a; zv_unknown := zv_unknown a |}.
Definition zset_bcc a x : z_acc :=
  {| zv_from := zv_from a; zv_sender := zv_sender a; zv_subject := zv_subject a; zv_date := zv_date a; zv_to := zv_to a; zv_cc := zv_cc a; zv_bcc := x; zv_message_id := zv_message_id a; zv_in_reply_to := zv_in_reply_to a; zv_references := zv_references a; zv_reply_to := zv_reply_to a; zv_comments := zv_comments a; zv_keywords := zv_keywords a; zv_trace := zv_trace a; zv_mime_version := zv_mime_version a; zv_content_type := zv_content_type a; zv_cte := zv_cte a; zv_content_id := zv_content_id a; zv_content_description := zv_content_description a; zv_content_disposition := zv_content_disposition a; zv_unknown := zv_unknown a |}.
Definition zset_message_id a x : z_acc :=
  {| zv_from := zv_from a; zv_sender := zv_sender a; zv_subject := zv_subject a; zv_date := zv_date a; zv_to := zv_to a; zv_cc := zv_cc a; zv_bcc := zv_bcc a; zv_message_id := x; zv_in_reply_to := zv_in_reply_to a; zv_references := zv_references a; zv_reply_to := zv_reply_to a; zv_comments := zv_comments a; zv_keywords := zv_keywords a; zv_trace := zv_trace a; zv_mime_version := zv_mime_version a; zv_content_type := zv_content_type a; zv_cte := zv_cte a; zv_content_id := zv_content_id a; zv_content_description := zv_content_description a; zv_content_disposition := zv_content_disposition a; zv_unknown := zv_unknown a |}.
Definition zset_in_reply_to a x : z_acc :=
  {| zv_from := zv_from a; zv_sender := zv_sender a; zv_subject := zv_subject a; zv_date := zv_date a; zv_to := zv_to a; zv_cc := zv_cc a; zv_bcc := zv_bcc a; zv_message_id := zv_message_id a; zv_in_reply_to := x; zv_references := zv_references a; zv_reply_to := zv_reply_to a; zv_comments := zv_comments a; zv_keywords := zv_keywords a; zv_trace := zv_trace a; zv_mime_version := zv_mime_version a; zv_content_type := zv_content_type a; zv_cte := zv_cte a; zv_content_id := zv_content_id a; zv_content_description := zv_content_description a; zv_content_disposition := zv_content_disposition a; zv_unknown := zv_unknown a |}.
Definition zset_references a x : z_acc :=
  {| zv_from := zv_from a; zv_sender := zv_sender a; zv_subject := zv_subject a; zv_date := zv_date a; zv_to := zv_to a; zv_cc := zv_cc a; zv_bcc := zv_bcc a; zv_message_id := zv_message_id a; zv_in_reply_to := zv_in_reply_to a; zv_references := x; zv_reply_to := zv_reply_to a; zv_comments := zv_comments a; zv_keywords := zv_keywords a; zv_trace := zv_trace a; zv_mime_version := zv_mime_version a; zv_content_type := zv_content_type a; zv_cte := zv_cte a; zv_content_id := zv_content_id a; zv_content_description := zv_content_description a; zv_content_disposition := zv_content_disposition a; zv_unknown := zv_unknown a |}.
Definition zset_reply_to a x : z_acc :=
  {| zv_from := zv_from a; zv_sender := zv_sender a; zv_subject := zv_subject a; zv_date := zv_date a; zv_to := zv_to a; zv_cc := zv_cc a; zv_bcc := zv_bcc a; zv_message_id := zv_message_id a; zv_in_reply_to := zv_in_reply_to a; zv_references := zv_references a; zv_reply_to := x; zv_comments := zv_comments a; zv_keywords := zv_keywords a; zv_trace := zv_trace a; zv_mime_version := zv_mime_version a; zv_content_type := zv_content_type a; zv_cte := zv_cte a; zv_content_id := zv_content_id a; zv_content_description := zv_content_description a; zv_content_disposition := zv_content_disposition a; zv_unknown := zv_unknown a |}.
Definition zset_comments a x : z_acc :=
  {| zv_from := zv_from a; zv_sender := zv_sender a; zv_subject := zv_subject a; zv_date := zv_date a; zv_to := zv_to a; zv_cc := zv_cc a; zv_bcc := zv_bcc a; zv_message_id := zv_message_id a; zv_in_reply_to := zv_in_reply_to a; zv_references := zv_references a; zv_reply_to := zv_reply_to a; zv_comments := x; zv_keywords := zv_keywords a; zv_trace := zv_trace a; zv_mime_version := zv_mime_version a; zv_content_type := zv_content_type a; zv_cte := zv_cte a; zv_content_id := zv_content_id a; zv_content_description := zv_content_description a; zv_content_disposition := zv_content_disposition a; zv_unknown := zv_unknown a |}.
Definition zset_keywords a x : z_acc :=
  {| zv_from := zv_from a; zv_sender := zv_sender a; zv_subject := zv_subject a; zv_date := zv_date a; zv_to := zv_to a; zv_cc := zv_cc a; zv_bcc := zv_bcc a; zv_message_id := zv_message_id a; zv_in_reply_to := zv_in_reply_to a; zv_references := zv_references a; zv_reply_to := zv_reply_to a; zv_comments := zv_comments a; zv_keywords := x; zv_trace := zv_trace a; zv_mime_version := zv_mime_version a; zv_content_type := zv_content_type a; zv_cte := zv_cte a; zv_content_id := zv_content_id a; zv_content_description := zv_content_description a; zv_content_disposition := zv_content_disposition a; zv_unknown := zv_unknown a |}.
Definition zset_trace a x : z_acc :=
  {| zv_from := zv_from a; zv_sender := zv_sender a; zv_subject := zv_subject a; zv_date := zv_date a; zv_to := zv_to a; zv_cc := zv_cc a; zv_bcc := zv_bcc a; zv_message_id := zv_message_id a; zv_in_reply_to := zv_in_reply_to a; zv_references := zv_references a; zv_reply_to := zv_reply_to a; zv_comments := zv_comments a; zv_keywords := zv_keywords a; zv_trace := x; zv_mime_version := zv_mime_version a; zv_content_type := zv_content_type a; zv_cte := zv_cte a; zv_content_id := zv_content_id a; zv_content_description := zv_content_description a; zv_content_disposition := zv_content_disposition a; zv_unknown := zv_unknown a |}.
Definition zset_mime_version a x : z_acc :=
  {| zv_from := zv_from a; zv_sender := zv_sender a; zv_subject := zv_subject a; zv_date := zv_date a; zv_to := zv_to a; zv_cc := zv_cc a; zv_bcc := zv_bcc a; zv_message_id := zv_message_id a; zv_in_reply_to := zv_in_reply_to a; zv_references := zv_references a; zv_reply_to := zv_reply_to a; zv_comments := zv_comments a; zv_keywords := zv_keywords a; zv_trace := zv_trace a; zv_mime_version := x; zv_content_type := zv_content_type a; zv_cte := zv_cte a; zv_content_id := zv_content_id a; zv_content_description := zv_content_description a; zv_content_disposition := zv_content_disposition a; zv_unknown := zv_unknown a |}.
Definition zset_content_type a x : z_acc :=
  {| zv_from := zv_from a; zv_sender := zv_sender a; zv_subject := zv_subject a; zv_date := zv_date a; zv_to := zv_to a; zv_cc := zv_cc a; zv_bcc := zv_bcc a; zv_message_id := zv_message_id a; zv_in_reply_to := zv_in_reply_to a; zv_references := zv_references a; zv_reply_to := zv_reply_to a; zv_comments := zv_comments a; zv_keywords := zv_keywords a; zv_trace := zv_trace a; zv_mime_version := zv_mime_version a; zv_content_type := x; zv_cte := zv_cte a; zv_content_id := zv_content_id a; zv_content_description := zv_content_description a; zv_content_disposition := zv_content_disposition a; zv_unknown := zv_unknown a |}.
Definition zset_cte a x : z_acc :=
  {| zv_from := zv_from a; zv_sender := zv_sender a; zv_subject := zv_subject a; zv_date := zv_date a; zv_to := zv_to a; zv_cc := zv_cc a; zv_bcc := zv_bcc a; zv_message_id := zv_message_id a; zv_in_reply_to := zv_in_reply_to a; zv_references := zv_references a; zv_reply_to := zv_reply_to a; zv_comments := zv_comments a; zv_keywords := zv_keywords a; zv_trace := zv_trace a; zv_mime_version := zv_mime_version a; zv_content_type := zv_content_type a; zv_cte := x; zv_content_id := zv_content_id a; zv_content_description := zv_content_description a; zv_content_disposition := zv_content_disposition a; zv_unknown := zv_unknown a |}.
Definition zset_content_id a x : z_acc :=
  {| zv_from := zv_from a; zv_sender := zv_sender a; zv_subject := zv_subject a; zv_date := zv_date a; zv_to := zv_to a; zv_cc := zv_cc a; zv_bcc := zv_bcc a; zv_message_id := zv_message_id a; zv_in_reply_to := zv_in_reply_to a; zv_references := zv_references a; zv_reply_to := zv_reply_to a; zv_comments := zv_comments a; zv_keywords := zv_keywords a; zv_trace := zv_trace a; zv_mime_version := zv_mime_version a; zv_content_type := zv_content_type a; zv_cte := zv_cte a; zv_content_id := x; zv_content_description := zv_content_description a; zv_content_disposition := zv_content_disposition a; zv_unknown := zv_unknown a |}.
Definition zset_content_description a x : z_acc :=
  {| zv_from := zv_from a; zv_sender := zv_sender a; zv_subject := zv_subject a; zv_date := zv_date a; zv_to := zv_to a; zv_cc := zv_cc a; zv_bcc := zv_bcc a; zv_message_id := zv_message_id a; zv_in_reply_to := zv_in_reply_to a; zv_references := zv_references a; zv_reply_to := zv_reply_to a; zv_comments := zv_comments a; zv_keywords := zv_keywords a; zv_trace := zv_trace a; zv_mime_version := zv_mime_version a; zv_content_type := zv_content_type a; zv_cte := zv_cte a; zv_content_id := zv_content_id a; zv_content_description := x; zv_content_disposition := zv_content_disposition a; zv_unknown := zv_unknown a |}.
Definition zset_content_disposition a x : z_acc :=
  {| zv_from := zv_from a; zv_sender := zv_sender a; zv_subject := zv_subject a; zv_date := zv_date a; zv_to := zv_to a; zv_cc := zv_cc a; zv_bcc := zv_bcc a; zv_message_id := zv_message_id a; zv_in_reply_to := zv_in_reply_to a; zv_references := zv_references a; zv_reply_to := zv_reply_to a; zv_comments := zv_comments a; zv_keywords := zv_keywords a; zv_trace := zv_trace a; zv_mime_version := zv_mime_version a; zv_content_type := zv_content_type a; zv_cte := zv_cte a; zv_content_id := zv_content_id a; zv_content_description := zv_content_description a; zv_content_disposition := x; zv_unknown := zv_unknown a |}.
Definition zset_unknown a x : z_acc :=
  {| zv_from := zv_from a; zv_sender := zv_sender a; zv_subject := zv_subject a; zv_date := zv_date a; zv_to := zv_to a; zv_cc := zv_cc a; zv_bcc := zv_bcc a; zv_message_id := zv_message_id a; zv_in_reply_to := zv_in_reply_to a; zv_references := zv_references a; zv_reply_to := zv_reply_to a; zv_comments := zv_comments a; zv_keywords := zv_keywords a; zv_trace := zv_trace a; zv_mime_version := zv_mime_version a; zv_content_type := zv_content_type a; zv_cte := zv_cte a; zv_content_id := zv_content_id a; zv_content_description := zv_content_description a; zv_content_disposition := zv_content_disposition a; zv_unknown := x |}.

(* email.rs:145-303 *)
Definition z_set_field (a : z_acc) (f : z_field) : res z_acc :=
  match f with
  | ZFrom l => let* x := set_once (zv_from a) l "From" in Ok (zset_from a x)
  | ZSender b => let* x := set_once (zv_sender a) b "Sender" in Ok (zset_sender a x)
  | ZSubject s => let* x := set_once (zv_subject a) s "Subject" in Ok (zset_subject a x)
  | ZDate d => let* x := set_once (zv_date a) d "Date" in Ok (zset_date a x)
  | ZTo l => let* x := set_once (zv_to a) l "To" in Ok (zset_to a x)
  | ZCc l => let* x := set_once (zv_cc a) l "Cc" in Ok (zset_cc a x)
  | ZBcc l => let* x := set_once (zv_bcc a) l "Bcc" in Ok (zset_bcc a x)
  | ZMessageId id => let* x := set_once (zv_message_id a) id "Message-ID" in Ok (zset_message_id a x)
  | ZInReplyTo ids => let* x := set_once (zv_in_reply_to a) ids "In-Reply-To" in Ok (zset_in_reply_to a x)
  | ZReferences ids => let* x := set_once (zv_references a) ids "References" in Ok (zset_references a x)
  | ZReplyTo l => let* x := set_once (zv_reply_to a) l "Reply-To" in Ok (zset_reply_to a x)
  | ZComments s => Ok (zset_comments a (zv_comments a ++ [s]))
  | ZKeywords l => Ok (zset_keywords a (zv_keywords a ++ l))
  | ZTrace rp rc l => Ok (zset_trace a (zv_trace a ++ [(rp, rc, l)]))
  | ZMimeVersion x y => let* x := set_once (zv_mime_version a) (x, y) "Mime-Version" in Ok (zset_mime_version a x)
  | ZContentType t s p => let* x := set_once (zv_content_type a) (t, s, p) "Content-Type" in Ok (zset_content_type a x)
  | ZContentTransferEncoding e => let* x := set_once (zv_cte a) e "Content-Transfer-Encoding" in Ok (zset_cte a x)
  | ZContentId id => let* x := set_once (zv_content_id a) id "Content-Id" in Ok (zset_content_id a x)
  | ZContentDescription d => let* x := set_once (zv_content_description a) d "Content-Description" in Ok (zset_content_description a x)
  | ZContentDisposition d => let* x := set_once (zv_content_disposition a) d "Content-Disposition" in Ok (zset_content_disposition a x)
  | ZUnknown n v => Ok (zset_unknown a (zv_unknown a ++ [(n, v)]))
  end.
(* email.rs:144-304 *)
Fixpoint z_set_fields (a : z_acc) (fs : list z_field) : res z_acc :=
  match fs with
  | [] => Ok a
  | f :: fs' => let* a := z_set_field a f in z_set_fields a fs'
  end.

(* email.rs:306-386. Line 316 clones the mailbox: a clone of a Cow is a Cow of the same kind *)
Definition z_finish (M : place) (l : literals) (E : env) (a : z_acc) (b : option cow) : res z_email :=
  let* fr := if f_from E then ok_or (zv_from a) (MissingHeader "From") else Ok [] in
  let* da := if f_date E then (let* d := ok_or (zv_date a) (MissingHeader "Date") in Ok (Some d)) else Ok None in
  let* se :=
    if f_sender E then
      match zv_sender a with
      | Some s => Ok (Some s)
      | None => match fr with
                | [b] => Ok (Some b)
                | _ => Err (MissingHeader "Sender")
                end
      end
    else Ok None in
  let* en :=
    if f_mime E then
      let '(t, s, p) := match zv_content_type a with Some x => x | None => z_default_content_type l end in
      let* v :=
        match b with
        | Some b => let* d := z_decode_value M E b (match zv_cte a with Some e => e | None => SevenBit end) in Ok (Some d)
        | None => Ok None
        end in
      Ok (Some {| zr_type := t; zr_subtype := s; zr_description := zv_content_description a;
                  zr_id := zv_content_id a; zr_parameters := p; zr_disposition := zv_content_disposition a;
                  zr_value := match v with Some v => v | None => empty_string (at_empty l) end; zr_additional := [] |})
    else Ok None in
  Ok {| ze_body := if f_mime E then None else b; ze_from := fr; ze_sender := se; ze_subject := zv_subject a; ze_date := da;
        ze_to := zv_to a; ze_cc := zv_cc a; ze_bcc := zv_bcc a; ze_message_id := zv_message_id a;
        ze_in_reply_to := zv_in_reply_to a; ze_references := zv_references a; ze_reply_to := zv_reply_to a;
        ze_comments := zv_comments a; ze_keywords := zv_keywords a; ze_trace := zv_trace a; ze_entity := en; ze_unknown := zv_unknown a |}.

(* email.rs:96-388: `data` is the slice that starts at [base] and has the bytes [data] *)
Definition z_parse (m : mem) (base : N) (l : literals) (E : env) (data : bytes) : res z_email :=
  let M := {| memory := m; base := base; total := length data; literal := at_empty l |} in
  let* (fs, b) := z_parse_message M E data in
  let* a := z_set_fields z_acc0 fs in
  z_finish M l E a b.

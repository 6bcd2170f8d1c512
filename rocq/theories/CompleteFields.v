(* Specification: the unambiguous part of the header grammar of RfcFields.v, on top of
   Complete.v. Blanks before the line end of a structured header must come after a fold,
   adjacent tokens must be separated, and a keyword must not start like another one. *)
From Verif Require Import Base Time Address Percent MimeFields Fields Rfc5322 Rfc2047 CodecSpec RfcFields EmailSpec Complete.
Local Open Scope N_scope.

(* the blanks at the end of a value, if any, follow a line end *)
Definition tidy (c : bytes) : Prop :=
  forall a w, c = a ++ w -> chars1 rfc_WSP w -> exists b y, a = b ++ [y] /\ (y = 10 \/ rfc_WSP y).
Definition tidily {A} (V : bytes -> A -> Prop) (c : bytes) (v : A) : Prop := V c v /\ tidy c.

(* ---- MIME ---- *)
Inductive indexed_param_name : bytes -> bytes * option N * bool -> Prop :=
| indexed_intro : forall a c i (e : bool), chars1 (fun x => mime_token_char x /\ x <> 42) a -> rfc_index c i ->
    indexed_param_name (a ++ c ++ (if e then bs "*" else [])) (map fold_case a, i, e).
Inductive clear_param_name : bytes -> bytes * option N * bool -> Prop :=
| clear_indexed : forall n v, indexed_param_name n v -> clear_param_name n v
| clear_unindexed : forall a, mime_token a -> (forall v, ~ indexed_param_name a v) -> clear_param_name a (map fold_case a, None, false).
(* RFC 2045: a token or a quoted string, without comments around it *)
Inductive clear_param_value : bytes -> bytes -> Prop :=
| clear_value_token : forall c, mime_token c -> clear_param_value c c
| clear_value_quoted : forall b v, rfc_qbody b v -> clear_param_value ([34] ++ b ++ [34]) v.
Inductive clear_param : bytes -> param -> Prop :=
| clear_param_intro : forall w w' n a i e c v, rfc_oCFWS w -> rfc_oCFWS w' -> clear_param_name n (a, i, e) -> clear_param_value c v ->
    clear_param (w ++ bs ";" ++ w' ++ n ++ bs "=" ++ c) (a, i, e, v).
(* a keyword, or a token that does not start with one *)
Inductive clear_keyword {A} (table : list (bytes * A)) (other : bytes -> A) : bytes -> A -> Prop :=
| clear_known : forall n c a, In (n, a) table -> same_nocase c n -> clear_keyword table other c a
| clear_other : forall c, mime_token c -> (forall n a x y, In (n, a) table -> c = x ++ y -> ~ same_nocase x n) ->
    clear_keyword table other c (other (map fold_case c)).
(* a debug build cannot count up to segment 256 *)
Definition segments_ok (E : env) (raw : list param) : Prop := debug E = true -> forall n, segment raw n 255 = None.
Inductive clear_content_type (E : env) : bytes -> content_type_t * bytes * list (bytes * bytes) -> Prop :=
| clear_content_type_intro : forall w c t s ps raw l x, rfc_oCFWS w -> clear_keyword mime_types CUnknown c t -> mime_token s ->
    many_of clear_param ps raw -> segments_ok E raw -> params_value (textcode E) raw l -> inline_cfws x ->
    clear_content_type E (w ++ c ++ bs "/" ++ s ++ ps ++ x) (t, map fold_case s, l).
Inductive clear_encoding : bytes -> encoding_t -> Prop :=
| clear_encoding_intro : forall w c e x, rfc_oCFWS w -> clear_keyword mime_encodings UnknownEnc c e -> inline_cfws x ->
    clear_encoding (w ++ c ++ x) e.
Definition disposition_names : list string := ["filename"; "creation-date"; "modification-date"; "read-date"]%string.
Inductive clear_disposition_item : bytes -> disposition_item -> Prop :=
| clear_filename : forall w w' n c v, rfc_oCFWS w -> rfc_oCFWS w' -> same_nocase n (bs "filename") -> clear_param_value c v ->
    clear_disposition_item (w ++ bs ";" ++ w' ++ n ++ bs "=" ++ c) (DFilename v)
| clear_creation : forall w w' n c d, rfc_oCFWS w -> rfc_oCFWS w' -> same_nocase n (bs "creation-date") -> rfc_date_value c d ->
    clear_disposition_item (w ++ bs ";" ++ w' ++ n ++ bs "=" ++ [34] ++ c ++ [34]) (DCreation d)
| clear_modification : forall w w' n c d, rfc_oCFWS w -> rfc_oCFWS w' -> same_nocase n (bs "modification-date") -> rfc_date_value c d ->
    clear_disposition_item (w ++ bs ";" ++ w' ++ n ++ bs "=" ++ [34] ++ c ++ [34]) (DModification d)
| clear_read : forall w w' n c d, rfc_oCFWS w -> rfc_oCFWS w' -> same_nocase n (bs "read-date") -> rfc_date_value c d ->
    clear_disposition_item (w ++ bs ";" ++ w' ++ n ++ bs "=" ++ [34] ++ c ++ [34]) (DRead d)
| clear_item_param : forall w w' n a i e c v, rfc_oCFWS w -> rfc_oCFWS w' -> clear_param_name n (a, i, e) -> clear_param_value c v ->
    (forall name, In name disposition_names -> ~ same_nocase n (bs name)) ->
    clear_disposition_item (w ++ bs ";" ++ w' ++ n ++ bs "=" ++ c) (DParam (a, i, e, v)).
Inductive clear_disposition (E : env) : bytes -> disposition_t -> Prop :=
| clear_disposition_intro : forall w c k is items l x, rfc_oCFWS w -> clear_keyword mime_dispositions DUnknown c k ->
    many_of clear_disposition_item is items -> segments_ok E (params_of items) -> params_value (textcode E) (params_of items) l -> inline_cfws x ->
    clear_disposition E (w ++ c ++ is ++ x)
      {| disposition_type := k;
         disp_filename := last_some (fun i => match i with DFilename v => Some v | _ => None end) items;
         disp_creation_date := last_some (fun i => match i with DCreation v => Some v | _ => None end) items;
         disp_modification_date := last_some (fun i => match i with DModification v => Some v | _ => None end) items;
         disp_read_date := last_some (fun i => match i with DRead v => Some v | _ => None end) items;
         disp_unstructured := l |}.

(* ---- RFC 5322 ---- *)
Inductive clear_bcc (mime compat : bool) (EW : bytes -> bytes -> Prop) : bytes -> list address_t -> Prop :=
| clear_bcc_list : forall c l, clear_address_list mime compat EW c l -> clear_bcc mime compat EW c l
| clear_bcc_empty : forall c, rfc_CFWS c -> clear_bcc mime compat EW c [].
(* the tokens of a Received header, without the white space and comments around them *)
Inductive clear_token (compat : bool) : bytes -> received_token -> Prop :=
| clear_token_atom : forall c, chars1 rfc_atext c -> clear_token compat c (RWord c)
| clear_token_quoted : forall b v, rfc_qbody b v -> clear_token compat ([34] ++ b ++ [34]) (RWord v)
| clear_token_angle : forall c a, rfc_addr_spec compat c a -> clear_token compat ([60] ++ c ++ [62]) (RAddr a)
| clear_token_domain : forall c, rfc_dot_atom_text compat c -> In 46 c -> clear_token compat c (RDomain c)
| clear_token_literal : forall b v, rfc_dbody b v -> clear_token compat ([91] ++ b ++ [93]) (RDomain v).
(* two tokens without anything between them that do not read as one: c does not end, or d does not
   start, like a domain *)
Definition distinct (c d : bytes) : Prop :=
  forall a x y b, c = a ++ [x] -> d = [y] ++ b -> ~ ((rfc_atext x \/ x = 46) /\ rfc_atext y).
(* tokens, with white space or comments after one and before the next *)
Inductive clear_tokens (compat : bool) : bytes -> list received_token -> Prop :=
| clear_tokens_one : forall c t r, clear_token compat c t -> rfc_oCFWS r -> clear_tokens compat (c ++ r) [t]
| clear_tokens_more : forall c t r w cs l, clear_token compat c t -> rfc_oCFWS r -> rfc_oCFWS w -> (r = [] -> w = [] -> distinct c cs) ->
    clear_tokens compat cs l -> clear_tokens compat (c ++ r ++ w ++ cs) (t :: l).
Inductive clear_received (compat : bool) : bytes -> list received_token * date_time_t -> Prop :=
| clear_received_none : forall c' d, rfc_date_value c' d -> clear_received compat (bs ";" ++ c') ([], d)
| clear_received_some : forall w c l c' d, rfc_oCFWS w -> clear_tokens compat c l -> rfc_date_value c' d ->
    clear_received compat (w ++ c ++ bs ";" ++ c') (l, d).
(* phrases separated by commas *)
Definition clear_keywords (mime : bool) (EW : bytes -> bytes -> Prop) := comma_list (clear_phrase mime EW).

(* the names of the headers that a build with the features of E interprets *)
Definition when (b : bool) (l : list string) : list string := if b then l else [].
Definition known_names (E : env) : list string :=
  when (f_date E) ["Date"]%string ++ when (f_from E) ["From"]%string ++ when (f_sender E) ["Sender"]%string ++
   when (f_reply_to E) ["Reply-To"]%string ++ when (f_to E) ["To"]%string ++ when (f_cc E) ["Cc"]%string ++
   when (f_bcc E) ["Bcc"]%string ++ when (f_message_id E) ["Message-ID"]%string ++
   when (f_in_reply_to E) ["In-Reply-To"]%string ++ when (f_references E) ["References"]%string ++
   when (f_subject E) ["Subject"]%string ++ when (f_comments E) ["Comments"]%string ++
   when (f_keywords E) ["Keywords"]%string ++
   when (f_mime E) ["MIME-Version"; "Content-Type"; "Content-Transfer-Encoding"; "Content-ID"; "Content-Description"; "Content-Disposition"]%string ++
   when (f_trace E) ["Return-Path"; "Received"; "Resent-Date"; "Resent-From"; "Resent-Sender"; "Resent-To"; "Resent-Cc"; "Resent-Bcc"; "Resent-Message-ID"]%string.
Inductive clear_unknown (E : env) : bytes -> bytes * bytes -> Prop :=
| clear_unknown_intro : forall n c v, chars1 rfc_ftext n -> (forall name, In name (known_names E) -> ~ same_nocase n (bs name)) ->
    clear_text_value (f_unrecognized_headers E) (textcode E) c v -> clear_unknown E (n ++ [58] ++ c ++ CRLF) (n, v).

(* one header outside of the trace blocks *)
Inductive clear_field (E : env) : bytes -> field -> Prop :=
| clear_date : forall c d, f_date E = true -> rfc_header "Date" (tidily rfc_date_value) c d -> clear_field E c (FDate d)
| clear_from : forall c l, f_from E = true -> rfc_header "From" (tidily (clear_mailbox_list (f_mime E) (f_compatibility_fixes E) (encoded E))) c l -> clear_field E c (FFrom l)
| clear_sender : forall c m, f_sender E = true -> rfc_header "Sender" (tidily (clear_mailbox (f_mime E) (f_compatibility_fixes E) (encoded E))) c m -> clear_field E c (FSender m)
| clear_reply_to : forall c l, f_reply_to E = true -> rfc_header "Reply-To" (tidily (clear_address_list (f_mime E) (f_compatibility_fixes E) (encoded E))) c l -> clear_field E c (FReplyTo l)
| clear_to : forall c l, f_to E = true -> rfc_header "To" (tidily (clear_address_list (f_mime E) (f_compatibility_fixes E) (encoded E))) c l -> clear_field E c (FTo l)
| clear_cc : forall c l, f_cc E = true -> rfc_header "Cc" (tidily (clear_address_list (f_mime E) (f_compatibility_fixes E) (encoded E))) c l -> clear_field E c (FCc l)
| clear_bcc_field : forall c l, f_bcc E = true -> rfc_header "Bcc" (tidily (clear_bcc (f_mime E) (f_compatibility_fixes E) (encoded E))) c l -> clear_field E c (FBcc l)
| clear_message_id : forall c i, f_message_id E = true -> rfc_header "Message-ID" (tidily (rfc_msg_id (f_compatibility_fixes E))) c i -> clear_field E c (FMessageId i)
| clear_in_reply_to : forall c l, f_in_reply_to E = true -> rfc_header "In-Reply-To" (tidily (rfc_msg_ids (f_compatibility_fixes E))) c l -> clear_field E c (FInReplyTo l)
| clear_references : forall c l, f_references E = true -> rfc_header "References" (tidily (rfc_msg_ids (f_compatibility_fixes E))) c l -> clear_field E c (FReferences l)
| clear_subject : forall c s, f_subject E = true -> rfc_header "Subject" (clear_text_value (f_mime E) (textcode E)) c s -> clear_field E c (FSubject s)
| clear_comments : forall c s, f_comments E = true -> rfc_header "Comments" (clear_text_value (f_mime E) (textcode E)) c s -> clear_field E c (FComments s)
| clear_keywords_field : forall c l, f_keywords E = true -> rfc_header "Keywords" (tidily (clear_keywords (f_mime E) (encoded E))) c l -> clear_field E c (FKeywords l)
| clear_mime_version : forall c x y, f_mime E = true -> rfc_header "MIME-Version" rfc_mime_version c (x, y) -> clear_field E c (FMimeVersion x y)
| clear_content_type_field : forall c t s p, f_mime E = true -> rfc_header "Content-Type" (clear_content_type E) c (t, s, p) -> clear_field E c (FContentType t s p)
| clear_encoding_field : forall c e, f_mime E = true -> rfc_header "Content-Transfer-Encoding" clear_encoding c e -> clear_field E c (FContentTransferEncoding e)
| clear_content_id : forall c i, f_mime E = true -> rfc_header "Content-ID" (tidily (rfc_msg_id (f_compatibility_fixes E))) c i -> clear_field E c (FContentId i)
| clear_content_description : forall c s, f_mime E = true -> rfc_header "Content-Description" (clear_text (textcode E)) c s -> clear_field E c (FContentDescription s)
| clear_content_disposition : forall c d, f_mime E = true -> rfc_header "Content-Disposition" (clear_disposition E) c d -> clear_field E c (FContentDisposition d)
| clear_unknown_field : forall c n v, clear_unknown E c (n, v) -> clear_field E c (FUnknown n v).

(* trace blocks *)
Inductive clear_resent (mime compat : bool) (EW : bytes -> bytes -> Prop) : bytes -> trace_field -> Prop :=
| clear_resent_date : forall c d, rfc_header "Resent-Date" (tidily rfc_date_value) c d -> clear_resent mime compat EW c (TDate d)
| clear_resent_from : forall c l, rfc_header "Resent-From" (tidily (clear_mailbox_list mime compat EW)) c l -> clear_resent mime compat EW c (TFrom l)
| clear_resent_sender : forall c m, rfc_header "Resent-Sender" (tidily (clear_mailbox mime compat EW)) c m -> clear_resent mime compat EW c (TSender m)
| clear_resent_to : forall c l, rfc_header "Resent-To" (tidily (clear_address_list mime compat EW)) c l -> clear_resent mime compat EW c (TTo l)
| clear_resent_cc : forall c l, rfc_header "Resent-Cc" (tidily (clear_address_list mime compat EW)) c l -> clear_resent mime compat EW c (TCc l)
| clear_resent_bcc : forall c l, rfc_header "Resent-Bcc" (tidily (clear_bcc mime compat EW)) c l -> clear_resent mime compat EW c (TBcc l)
| clear_resent_msg_id : forall c i, rfc_header "Resent-Message-ID" (tidily (rfc_msg_id compat)) c i -> clear_resent mime compat EW c (TMessageId i).
Inductive clear_return (compat : bool) : bytes -> option (option email_address) -> Prop :=
| clear_return_none : clear_return compat [] None
| clear_return_some : forall c p, rfc_header "Return-Path" (tidily (rfc_path compat)) c p -> clear_return compat c (Some p).
Inductive clear_block (E : env) : bytes -> field -> Prop :=
| clear_block_intro : forall c1 p c2 r c3 l, clear_return (f_compatibility_fixes E) c1 p ->
    r <> [] -> many_of (rfc_header "Received" (tidily (clear_received (f_compatibility_fixes E)))) c2 r ->
    many_of (clear_resent (f_mime E) (f_compatibility_fixes E) (encoded E)) c3 l ->
    clear_block E (c1 ++ c2 ++ c3) (FTrace p r l).
(* a Received header right after another one is of the same block *)
Definition separate (f : field) (fs : list field) : Prop :=
  match f, fs with
  | FTrace _ _ l, FTrace p _ _ :: _ => l <> [] \/ p <> None
  | _, _ => True
  end.
Inductive clear_blocks (E : env) : bytes -> list field -> Prop :=
| clear_blocks_nil : clear_blocks E [] []
| clear_blocks_cons : forall c f cs fs, clear_block E c f -> separate f fs -> clear_blocks E cs fs -> clear_blocks E (c ++ cs) (f :: fs).

(* ---- messages: the trace blocks come first ---- *)
Inductive clear_message (E : env) : bytes -> list field -> option bytes -> Prop :=
| clear_message_intro : forall c1 t c2 l c3 b, clear_blocks E c1 t -> (f_trace E = true \/ t = []) -> many_of (clear_field E) c2 l ->
    rest_text c3 b -> clear_message E (c1 ++ c2 ++ c3) (t ++ l) b.

(* the same field, up to the order in which parameters are stored *)
Inductive same_field : field -> field -> Prop :=
| same_refl : forall f, same_field f f
| same_content_type : forall t s l l', (forall n, map_get l n = map_get l' n) -> same_field (FContentType t s l) (FContentType t s l')
| same_disposition : forall k f c m r l l', (forall n, map_get l n = map_get l' n) ->
    same_field (FContentDisposition {| disposition_type := k; disp_filename := f; disp_creation_date := c; disp_modification_date := m; disp_read_date := r; disp_unstructured := l |})
               (FContentDisposition {| disposition_type := k; disp_filename := f; disp_creation_date := c; disp_modification_date := m; disp_read_date := r; disp_unstructured := l' |}).

(* ---- what Email::parse needs besides ---- *)
(* the headers and the body make an email *)
Record acceptable (E : env) (fs : list field) (b : option bytes) : Prop := {
  acc_unique : NoDup (pick singular fs);
  acc_from : f_from E = true -> pick is_from fs <> [];
  acc_date : f_date E = true -> pick is_date fs <> [];
  acc_sender : f_sender E = true -> pick is_sender fs <> [] \/ exists m, pick is_from fs = [[m]];
  acc_encoding : f_mime E = true -> forall t, b = Some t -> exists v, transfer_decoded (encoding_of (only is_cte fs)) t v;
  acc_body : f_mime E = false -> forall t, b = Some t -> body_text t
}.

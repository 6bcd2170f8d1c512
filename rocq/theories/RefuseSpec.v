(* Specification for C57: why a text is refused, with the error returned. *)
From Verif Require Import Base Utf8 CharSets Time Address MimeFields Fields Entity Email Rfc5322 CodecSpec RfcFields Complete CompleteFields LineSpec EmailSpec
  MultipartSpec EntitySpec CutSpec ExactSpec MimeExactSpec PartExactSpec.
Local Open Scope N_scope.

(* ---- messages ---- *)
(* the headers of a message, as in ExactSpec.v, whatever the body is *)
Inductive headers_read (E : env) : bytes -> list field -> option bytes -> Prop :=
| headers_read_intro : forall c1 t c2 l c3 b, clear_blocks E c1 t -> (f_trace E = false -> t = []) ->
    (f_trace E = true -> ~ begins (block_start E) (c2 ++ c3)) ->
    (t <> [] -> ~ begins (clear_resent (f_mime E) (f_compatibility_fixes E) (encoded E)) (c2 ++ c3)) ->
    many_of (field_read E) c2 l -> rest_text c3 b ->
    headers_read E (c1 ++ c2 ++ c3) (t ++ l) b.
Definition reads (E : env) (d : bytes) (fs : list field) (b : option bytes) : Prop :=
  if f_mime E then mime_message_read E d fs b else headers_read E d fs b.
(* without mime the lines of the body are checked *)
Definition good_body (E : env) (b : option bytes) : Prop := f_mime E = false -> forall x, b = Some x -> body_text x.

(* ---- contents ---- *)
(* the first thing that is wrong with base64 data: a character that belongs to the alphabet after
   one "=", or an incomplete group at the end *)
Fixpoint b64_fault (s : b64_state) (l : list symbol) : option string :=
  match l with
  | [] => match s with
          | G0 => None
          | G1 _ => Some "Missing at least 3 bytes"
          | G2 _ _ => Some "Missing at least 2 bytes"
          | G3 _ _ _ | G3Pad _ _ => Some "Missing at least 1 byte"
          end
  | x :: r =>
    match s, x with
    | G0, V a => b64_fault (G1 a) r
    | G0, Pad => b64_fault G0 r
    | G1 a, V b => b64_fault (G2 a b) r
    | G1 a, Pad => b64_fault (G1 a) r
    | G2 a b, V c => b64_fault (G3 a b c) r
    | G2 a b, Pad => b64_fault (G3Pad a b) r
    | G3 _ _ _, _ => b64_fault G0 r
    | G3Pad _ _, V _ => Some "Data after end of data"
    | G3Pad _ _, Pad => b64_fault G0 r
    end
  end%string.
Definition content_fault (e : encoding_t) (b : bytes) : option string :=
  match e with
  | Base64Enc => b64_fault G0 (symbols b)
  | UnknownEnc _ => Some "Unknown format"%string
  | _ => None
  end.

(* ---- mails ---- *)
(* the reasons, in the order in which they are looked at *)
Inductive refused (E : env) (d : bytes) : error -> Prop :=
| refused_headers : (forall fs b, ~ reads E d fs b) -> refused E d (Explicit "TAG ERROR: Headers must be followed by a CRLF sequence.")
| refused_body : forall fs b, f_mime E = false -> reads E d fs (Some b) -> ~ body_text b ->
    refused E d (Explicit "TAG ERROR: In a body, a line must end with a CRLF sequence.")
| refused_duplicate : forall fs b n, reads E d fs b -> good_body E b -> first_repeat fs n -> refused E d (DuplicateHeader n)
| refused_from : forall fs b, reads E d fs b -> good_body E b -> NoDup (pick singular fs) -> f_from E = true -> pick is_from fs = [] ->
    refused E d (MissingHeader "From")
| refused_date : forall fs b, reads E d fs b -> good_body E b -> NoDup (pick singular fs) -> (f_from E = true -> pick is_from fs <> []) ->
    f_date E = true -> pick is_date fs = [] -> refused E d (MissingHeader "Date")
| refused_sender : forall fs b l, reads E d fs b -> good_body E b -> NoDup (pick singular fs) -> pick is_from fs = [l] -> (f_date E = true -> pick is_date fs <> []) ->
    f_sender E = true -> pick is_sender fs = [] -> length l <> 1%nat -> refused E d (MissingHeader "Sender")
| refused_content : forall fs b w, reads E d fs (Some b) -> NoDup (pick singular fs) -> (f_from E = true -> pick is_from fs <> []) -> (f_date E = true -> pick is_date fs <> []) ->
    (f_sender E = true -> pick is_sender fs <> [] \/ exists m, pick is_from fs = [[m]]) ->
    f_mime E = true -> content_fault (encoding_of (only is_cte fs)) b = Some w -> refused E d (Unknown w).

(* ---- parts and entities ---- *)
Inductive refused_part (E : env) (i : bytes) : error -> Prop :=
| refused_part_headers : (forall hs b, ~ part_text_read E i hs b) -> refused_part E i (Explicit "TAG ERROR: A MIME entity header part must be followed by a CRLF sequence.")
| refused_part_content : forall hs b w, part_text_read E i hs b -> content_fault (encoding_of (last_some of_encoding hs)) b = Some w -> refused_part E i (Unknown w).
Inductive refused_entity (E : env) (r : raw_entity_t) : error -> Prop :=
| refused_boundary : e_mime_type r = CMultipart -> map_get (e_parameters r) (bs "boundary") = None -> refused_entity E r (Unknown "Missing boundary parameter")
| refused_unclosed : forall b, e_mime_type r = CMultipart -> map_get (e_parameters r) (bs "boundary") = Some b -> unclosed b (e_value r) ->
    refused_entity E r (Unknown "closing boundary not found")
| refused_first : forall b ps p qs err, e_mime_type r = CMultipart -> map_get (e_parameters r) (bs "boundary") = Some b -> cut_parts b (e_value r) (ps ++ p :: qs) ->
    Forall (fun i => forall e, ~ refused_part E i e) ps -> refused_part E p err -> refused_entity E r err
| refused_text : forall cs, e_mime_type r = CText -> map_get (e_parameters r) (bs "charset") = Some cs -> In (map fold_case cs) charset_names ->
    (forall v, ~ charset_decodes (textcode E) (map fold_case cs) (e_value r) v) ->
    refused_entity E r (Unknown "Invalid text encoding").

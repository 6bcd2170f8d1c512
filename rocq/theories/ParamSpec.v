(* Specification for C35 and C36: results that do not depend on the iteration order of hash
   maps, and how parameters are written with the continuations of RFC 2231. *)
From Coq Require Import Permutation.
From Verif Require Import Base Utf8 Time Address Percent MimeFields Fields Entity Email Rfc5322 CodecSpec RfcFields Writers CompleteFields.
Local Open Scope N_scope.

(* ---- iteration order ---- *)
(* the same build, with another iteration order of hash maps *)
Definition with_order (E : env) (h : list bytes -> list bytes) : env :=
  {| f_from := f_from E; f_sender := f_sender E; f_subject := f_subject E; f_date := f_date E; f_to := f_to E; f_cc := f_cc E;
     f_bcc := f_bcc E; f_message_id := f_message_id E; f_in_reply_to := f_in_reply_to E; f_references := f_references E;
     f_reply_to := f_reply_to E; f_comments := f_comments E; f_keywords := f_keywords E; f_trace := f_trace E; f_mime := f_mime E;
     f_unrecognized_headers := f_unrecognized_headers E; f_compatibility_fixes := f_compatibility_fixes E; debug := debug E;
     textcode := textcode E; hash_order := h |}.
Definition an_order (h : list bytes -> list bytes) : Prop := forall l, Permutation (h l) l.
(* maps with the same contents *)
Definition same_map (l l' : list (bytes * bytes)) : Prop := forall n, map_get l n = map_get l' n.
Inductive same_disposition_t : disposition_t -> disposition_t -> Prop :=
| same_disposition_intro : forall k f c m r l l', same_map l l' -> same_disposition_t
    {| disposition_type := k; disp_filename := f; disp_creation_date := c; disp_modification_date := m; disp_read_date := r; disp_unstructured := l |}
    {| disposition_type := k; disp_filename := f; disp_creation_date := c; disp_modification_date := m; disp_read_date := r; disp_unstructured := l' |}.
Inductive same_option {A} (same : A -> A -> Prop) : option A -> option A -> Prop :=
| same_none : same_option same None None
| same_some : forall x y, same x y -> same_option same (Some x) (Some y).
Inductive same_entity : raw_entity_t -> raw_entity_t -> Prop :=
| same_entity_intro : forall t s d i p p' x x' v a, same_map p p' -> same_option same_disposition_t x x' -> same_entity
    {| e_mime_type := t; e_subtype := s; e_description := d; e_id := i; e_parameters := p; e_disposition := x; e_value := v; e_additional_headers := a |}
    {| e_mime_type := t; e_subtype := s; e_description := d; e_id := i; e_parameters := p'; e_disposition := x'; e_value := v; e_additional_headers := a |}.
Inductive same_email : email -> email -> Prop :=
| same_email_intro : forall b fr se su da t c bc mi ir re rt co ke tr me me' un, same_option same_entity me me' -> same_email
    {| body_of := b; from := fr; sender := se; subject := su; date_of := da; to := t; cc := c; bcc := bc; message_id_of := mi;
       in_reply_to := ir; references := re; reply_to := rt; comments := co; keywords := ke; trace_of := tr; mime_entity := me; unknown_fields := un |}
    {| body_of := b; from := fr; sender := se; subject := su; date_of := da; to := t; cc := c; bcc := bc; message_id_of := mi;
       in_reply_to := ir; references := re; reply_to := rt; comments := co; keywords := ke; trace_of := tr; mime_entity := me'; unknown_fields := un |}.
Inductive same_parsed : entity_t -> entity_t -> Prop :=
| same_multipart : forall s l l', Forall2 same_entity l l' -> same_parsed (EMultipart s l) (EMultipart s l')
| same_text : forall s v, same_parsed (EText s v) (EText s v)
| same_unknown : same_parsed EUnknown EUnknown.
(* two runs: the same result, or the same error *)
Definition same_result {A} (same : A -> A -> Prop) (x y : res A) : Prop :=
  match x, y with
  | Ok a, Ok b => same a b
  | Err e, Err e' => e = e'
  | _, _ => False
  end.

(* ---- written parameters ---- *)
(* name, name*index, name*index*  *)
Definition written_param_name (a : bytes) (i : option N) (e : bool) (c : bytes) : Prop :=
  match i with
  | None => c = a /\ e = false
  | Some k => exists d, chars1 rfc_DIGIT d /\ number d = k /\ c = a ++ bs "*" ++ d ++ (if e then bs "*" else [])
  end.
Inductive written_param_value : bytes -> bytes -> Prop :=
| value_token : forall v, mime_token v -> written_param_value v v
| value_quoted : forall q v, quoting q v -> written_param_value ([34] ++ q ++ [34]) v.
Inductive written_param : bytes -> param -> Prop :=
| written_param_intro : forall a i e n c v, chars1 (fun x => mime_token_char x /\ x <> 42) a -> written_param_name a i e n ->
    (forall k, i = Some k -> k < 256) -> written_param_value c v ->
    written_param (bs "; " ++ n ++ bs "=" ++ c) (map fold_case a, i, e, v).

(* the segments of parameter n, in the order they are written, and its plain values *)
Definition segments_of (raw : list param) (n : bytes) : list (N * (bool * bytes)) :=
  concat (map (fun '(n', i, e, v) => match i with Some k => if bytes_eqb n n' then [(k, (e, v))] else [] | None => [] end) raw).
Definition values_of (raw : list param) (n : bytes) : list bytes :=
  concat (map (fun '(n', i, _, v) => match i with Some _ => [] | None => if bytes_eqb n n' then [v] else [] end) raw).
Fixpoint last_of {A} (l : list A) : option A :=
  match l with
  | [] => None
  | x :: r => match last_of r with Some y => Some y | None => Some x end
  end.
Fixpoint numbered {A} (k : N) (l : list A) : list (N * A) :=
  match l with
  | [] => []
  | x :: r => (k, x) :: numbered (k + 1) r
  end.

(* a text cut into segments; those marked are percent-encoded, and then the first one starts
   with the charset and a language *)
Inductive cut_rest (c : bool) : list (bool * bytes) -> bytes -> Prop :=
| rest_end : cut_rest c [] []
| rest_literal : forall t l v, cut_rest c l v -> cut_rest c ((false, t) :: l) (t ++ v)
| rest_encoded : forall t u l v, c = true -> percent_encodes u t -> utf8_valid u = true -> cut_rest c l v ->
    cut_rest c ((true, t) :: l) (u ++ v).
Inductive cut : list (bool * bytes) -> bytes -> Prop :=
| cut_literal : forall t l v, cut_rest false l v -> cut ((false, t) :: l) (t ++ v)
| cut_encoded : forall charset lang t u l v, same_nocase charset (bs "utf-8") -> ~ In 39 lang -> percent_encodes u t -> utf8_valid u = true ->
    cut_rest true l v -> cut ((true, charset ++ bs "'" ++ lang ++ bs "'" ++ t) :: l) (u ++ v).
(* the value of parameter n: its segments, in whatever order they are written, joined in the
   order of their numbers; without segments, the last plain value *)
Inductive stands_for (limit : nat) (raw : list param) (n : bytes) : option bytes -> Prop :=
| stands_plain : segments_of raw n = [] -> stands_for limit raw n (last_of (values_of raw n))
| stands_cut : forall l v, Permutation (segments_of raw n) (numbered 0 l) -> cut l v -> (length l <= limit)%nat -> stands_for limit raw n (Some v).
(* a build with overflow checks cannot count the 256th segment (C03) *)
Definition most_segments (E : env) : nat := if debug E then 255 else 256.
(* what can be written: lower-case names, each once, and any UTF-8 text *)
Definition writable_params (l : list (bytes * bytes)) : Prop :=
  NoDup (map fst l) /\ Forall (fun '(n, v) => chars1 (fun x => mime_token_char x /\ x <> 42) n /\ map fold_case n = n /\ utf8_valid v = true) l.
(* these have a meaning of their own in a Content-Disposition header when written without an index *)
Definition ordinary_params (raw : list param) : Prop :=
  Forall (fun '(n, i, e, v) => i = None -> ~ In n (map bs ["filename"; "creation-date"; "modification-date"; "read-date"]%string)) raw.

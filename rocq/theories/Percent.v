(* parsing/mime/percent_encoding.rs *)
From Verif Require Import Base Utf8 CharSets Combinators QuotedPrintable Charset.
Local Open Scope N_scope.

(* percent_encoding.rs:36-41: the indexes of the '%' bytes, in increasing order *)
Fixpoint percents_from (k : nat) (input : bytes) : list nat :=
  match input with
  | [] => []
  | b :: r => if b =? 37 then k :: percents_from (S k) r else percents_from (S k) r
  end.

(* percent_encoding.rs:43-68: the body of the loop for one index *)
Definition decode_percent (E : env) (input : bytes) (percent : nat) : res bytes :=
  match nth_error input (percent + 1), nth_error input (percent + 2) with
  | Some first, Some second =>
    match from_hex first, from_hex second with
    | Some first, Some second =>
      let* t := u8_mul E first 16 in
      let* n := u8_add E t second in
      let* input := unchecked_set input percent n in
      let* (_, input) := vec_remove input (percent + 2) in
      let* (_, input) := vec_remove input (percent + 1) in
      Ok input
    | _, _ => Ok input
    end
  | _, _ => Ok input
  end.

(* percent_encoding.rs:43: for percent in percents.iter().rev() *)
Fixpoint decode_percents (E : env) (input : bytes) (ps : list nat) : res bytes :=
  match ps with
  | [] => Ok input
  | p :: ps' => let* input := decode_percent E input p in decode_percents E input ps'
  end.

(* percent_encoding.rs:4-96; the charset list (5-27) and the match (71-93) have the
   same entries, so the `_` arm (92) is dead *)
Definition decode_parameter (E : env) (input : bytes) (charset : bytes) : res bytes :=
  match find_charset charset with
  | None => str_unchecked input
  | Some k =>
    let percents := percents_from 0 input in
    let* input := decode_percents E input (rev percents) in
    decode_charset E k input
  end.

(* a parsed parameter: (name, index, encoded, value) *)
Definition param := (bytes * option N * bool * bytes)%type.

(* HashMap<u8, (bool, Cow<str>)> *)
Fixpoint imap_insert (m : list (N * (bool * bytes))) (k : N) (v : bool * bytes) : list (N * (bool * bytes)) :=
  match m with
  | [] => [(k, v)]
  | (k', v') :: m' => if k =? k' then (k', v) :: m' else (k', v') :: imap_insert m' k v
  end.
Fixpoint imap_remove (m : list (N * (bool * bytes))) (k : N) : option ((bool * bytes) * list (N * (bool * bytes))) :=
  match m with
  | [] => None
  | (k', v') :: m' =>
    if k =? k' then Some (v', m')
    else match imap_remove m' k with
         | Some (v, r) => Some (v, (k', v') :: r)
         | None => None
         end
  end.

(* percent_encoding.rs:103-115: split into plain and indexed parameters *)
Fixpoint split_parameters (l : list param) (plain : list (bytes * bytes))
    (complex : list (bytes * list (N * (bool * bytes)))) :=
  match l with
  | [] => (plain, complex)
  | (name, index, encoded, value) :: l' =>
    match index with
    | Some index =>
      let m := match map_get complex name with Some m => m | None => [] end in
      split_parameters l' plain (map_insert complex name (imap_insert m index (encoded, value)))
    | None => split_parameters l' (map_insert plain name value) complex
    end
  end.

(* percent_encoding.rs:118-163: the value of index 0, and the charset if encoded;
   the Borrowed and Owned arms are the same at value level *)
Definition first_segment (E : env) (encoded : bool) (value : bytes) : res (bytes * option bytes) :=
  if encoded then
    let* (value, charset) := take_while (fun c => negb (c =? 39)) value in
    let charset := lowercase charset in
    let* (value, _) := tag (bs "'") "TAG ERROR: In a parameter list, a charset must be followed by a `'`." value in
    let* (value, _) := take_while (fun c => negb (c =? 39)) value in
    let* (value, _) := tag (bs "'") "TAG ERROR: In a parameter list, a language must be followed by a `'`." value in
    let* v := decode_parameter E value charset in
    Ok (v, Some charset)
  else Ok (value, None).

(* percent_encoding.rs:165-179: idx is a u8 *)
Fixpoint next_segments (E : env) (n : nat) (values : list (N * (bool * bytes))) (charset : option bytes)
    (idx : N) (value : bytes) : res bytes :=
  match n with
  | O => Crash OutOfFuel
  | S n' =>
    match imap_remove values idx with
    | None => Ok value
    | Some ((encoded, new_value), values) =>
      let* value :=
        match encoded, charset with
        | true, Some c => let* d := decode_parameter E new_value c in Ok (value ++ d)
        | _, _ => Ok (value ++ new_value)
        end in
      let* idx := u8_add E idx 1 in
      next_segments E n' values charset idx value
    end
  end.

(* percent_encoding.rs:117-182, for one name *)
Definition join_segments (E : env) (values : list (N * (bool * bytes))) : res (option bytes) :=
  match imap_remove values 0 with
  | None => Ok None
  | Some ((encoded, value), values) =>
    let* (value, charset) := first_segment E encoded value in
    let* v := next_segments E (S (length values)) values charset 1 value in
    Ok (Some v)
  end.

(* percent_encoding.rs:116-183: iteration over the HashMap, in the order [names] *)
Fixpoint join_all (E : env) (names : list bytes) (complex : list (bytes * list (N * (bool * bytes))))
    (parameters : list (bytes * bytes)) : res (list (bytes * bytes)) :=
  match names with
  | [] => Ok parameters
  | name :: names' =>
    match map_get complex name with
    | None => join_all E names' complex parameters
    | Some values =>
      let* v := join_segments E values in
      let parameters := match v with Some v => map_insert parameters name v | None => parameters end in
      join_all E names' complex parameters
    end
  end.

(* percent_encoding.rs:98-185 *)
Definition collect_parameters (E : env) (l : list param) : res (list (bytes * bytes)) :=
  let (plain, complex) := split_parameters l [] [] in
  join_all E (hash_order E (map fst complex)) complex plain.

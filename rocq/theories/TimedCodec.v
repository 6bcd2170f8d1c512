(* The codecs and the search for boundaries again, counting the work they do.

   Every definition below is the one of the same name (without the t_) in the model, and its
   comment cites the same lines; TimedCodecFacts.v proves that both return the same results. The
   work is counted as in Timed.v, and:
   - a turn of a loop: one;
   - Vec::insert and Vec::remove at an index: one for each byte behind the index, which is moved,
     and one for the byte inserted or removed;
   - Vec::drain of a range: one for each byte of the range and for each byte behind it;
   - a comparison of a slice with bytes: one, and one for each byte up to the first difference;
   - Vec::push is counted as amortised: one for each byte. *)
From Verif Require Import Base Utf8 CharSets Combinators Base64 QuotedPrintable Charset Percent MimeFields Entity Timed.
Local Open Scope N_scope.

(* Vec::insert *)
Definition t_insert (l : bytes) (k : nat) (x : N) : timed bytes :=
  t_step (S (length l - k)) (vec_insert l k x).
(* Vec::remove *)
Definition t_remove (l : bytes) (k : nat) : timed (N * bytes) :=
  t_step (length l - k)%nat (vec_remove l k).
(* Vec::drain(a..b), dropped *)
Definition t_drain (l : bytes) (a b : nat) : timed bytes :=
  t_step (length l - a)%nat (vec_drain l a b).

(* ---- quoted_printables.rs ---- *)
(* quoted_printables.rs:12-56 *)
Fixpoint t_encode_qp_loop (E : env) (n : nat) (data : bytes) (idx line : nat) : timed bytes :=
  match n with
  | O => (Crash OutOfFuel, 0%nat)
  | S n' =>
    let+ _ := t_step 1 (Ok tt) in
    match nth_error data idx with
    | None => t_ok data
    | Some byte =>
      let+ (data, idx, line) :=
        if (72 <=? line)%nat then
          let+ data := t_insert data idx 10 in
          let+ data := t_insert data idx 13 in
          let+ data := t_insert data idx 61 in
          t_ok (data, (idx + 3)%nat, 0%nat)
        else t_ok (data, idx, line) in
      if litteral_repr_possible byte then
        t_encode_qp_loop E n' data (idx + 1) (line + 1)
      else if ((byte =? 9) || (byte =? 32))
              && match nth_error data (idx + 1) with Some c => negb (c =? 13) | None => false end then
        t_encode_qp_loop E n' data (idx + 1) (line + 1)
      else if (byte =? 13) && get_is data (idx + 1) 10 then
        t_encode_qp_loop E n' data (idx + 2) 0
      else
        let+ (_, data) := t_remove data idx in
        let+ lo := t_step 0 (to_hex E (byte mod 16)) in
        let+ data := t_insert data idx lo in
        let+ d := t_step 0 (u8_sub E byte (byte mod 16)) in
        let+ hi := t_step 0 (to_hex E (d / 16)) in
        let+ data := t_insert data idx hi in
        let+ data := t_insert data idx 61 in
        t_encode_qp_loop E n' data (idx + 3) (line + 3)
    end
  end.
(* quoted_printables.rs:7-59 *)
Definition t_encode_qp (E : env) (data : bytes) : timed bytes :=
  t_encode_qp_loop E (S (length data)) data 0 0.

(* quoted_printables.rs:87-90, 98-101, 135-138, 146-149 *)
Definition t_put_replacement (data : bytes) (idx : nat) : timed bytes :=
  let+ data := t_step 0 (vec_set data idx 189) in
  let+ data := t_insert data idx 191 in
  t_insert data idx 239.
(* quoted_printables.rs:68-94 and 116-142 *)
Definition t_decode_escape (E : env) (data : bytes) (idx : nat) : timed (bytes * nat) :=
  if get_is data (idx + 1) 13 && get_is data (idx + 2) 10 then
    let+ data := t_drain data idx (idx + 3) in
    t_ok (data, idx)
  else if (idx + 2 <? length data)%nat then
    let+ (first, data) := t_remove data (idx + 1) in
    let+ (second, data) := t_remove data (idx + 1) in
    match from_hex first, from_hex second with
    | Some first, Some second =>
      let+ t := t_step 0 (u8_mul E first 16) in
      let+ v := t_step 0 (u8_add E t second) in
      let+ data := t_step 0 (vec_set data idx v) in
      t_ok (data, (idx + 1)%nat)
    | _, _ =>
      let+ data := t_put_replacement data idx in
      t_ok (data, (idx + 3)%nat)
    end
  else t_ok (data, (idx + 1)%nat).
(* quoted_printables.rs:64-103 *)
Fixpoint t_decode_qp_loop (E : env) (n : nat) (data : bytes) (idx : nat) : timed bytes :=
  match n with
  | O => (Crash OutOfFuel, 0%nat)
  | S n' =>
    let+ _ := t_step 1 (Ok tt) in
    match nth_error data idx with
    | None => t_ok data
    | Some byte =>
      if litteral_repr_possible byte || (byte =? 32) || (byte =? 9) then
        t_decode_qp_loop E n' data (idx + 1)
      else if byte =? 61 then
        let+ (data, idx) := t_decode_escape E data idx in
        t_decode_qp_loop E n' data idx
      else if (byte =? 13) && get_is data (idx + 1) 10 then
        t_decode_qp_loop E n' data (idx + 2)
      else
        let+ data := t_put_replacement data idx in
        t_decode_qp_loop E n' data (idx + 3)
    end
  end.
(* quoted_printables.rs:61-106 *)
Definition t_decode_qp (E : env) (data : bytes) : timed bytes :=
  t_decode_qp_loop E (S (length data)) data 0.
(* quoted_printables.rs:111-151 *)
Fixpoint t_decode_header_qp_loop (E : env) (n : nat) (data : bytes) (idx : nat) : timed bytes :=
  match n with
  | O => (Crash OutOfFuel, 0%nat)
  | S n' =>
    let+ _ := t_step 1 (Ok tt) in
    match nth_error data idx with
    | None => t_ok data
    | Some byte =>
      if byte =? 95 then
        let+ data := t_step 0 (vec_set data idx 32) in
        t_decode_header_qp_loop E n' data (idx + 1)
      else if byte =? 61 then
        let+ (data, idx) := t_decode_escape E data idx in
        t_decode_header_qp_loop E n' data idx
      else if (32 <=? byte) && (byte <=? 126) then
        t_decode_header_qp_loop E n' data (idx + 1)
      else
        let+ data := t_put_replacement data idx in
        t_decode_header_qp_loop E n' data (idx + 3)
    end
  end.
(* quoted_printables.rs:108-154 *)
Definition t_decode_header_qp (E : env) (data : bytes) : timed bytes :=
  t_decode_header_qp_loop E (S (length data)) data 0.

(* ---- base64.rs ---- *)
(* base64.rs:10-65: one for each turn, and six for the bytes pushed in it *)
Fixpoint t_encode_base64_loop (E : env) (data : bytes) (line : nat) : timed bytes :=
  match data with
  | [] => t_step 1 (Ok [])
  | byte1 :: rest1 =>
    let+ _ := t_step 7 (Ok tt) in
    let nl := if (72 <=? line)%nat then CRLF else [] in
    let line := if (72 <=? line)%nat then 0%nat else line in
    match rest1 with
    | byte2 :: byte3 :: rest =>
      let o1 := u8_shr (u8_and 252 byte1) 2 in
      let+ o2 := t_step 0 (u8_add E (u8_shl (u8_and 3 byte1) 4) (u8_shr (u8_and 240 byte2) 4)) in
      let+ o3 := t_step 0 (u8_add E (u8_shl (u8_and 15 byte2) 2) (u8_shr (u8_and 192 byte3) 6)) in
      let o4 := u8_and 63 byte3 in
      let+ c1 := t_step 0 (base64_char o1) in
      let+ c2 := t_step 0 (base64_char o2) in
      let+ c3 := t_step 0 (base64_char o3) in
      let+ c4 := t_step 0 (base64_char o4) in
      let+ r := t_encode_base64_loop E rest (line + 4)%nat in
      t_ok (nl ++ [c1; c2; c3; c4] ++ r)
    | [byte2] =>
      let o1 := u8_shr (u8_and 252 byte1) 2 in
      let+ o2 := t_step 0 (u8_add E (u8_shl (u8_and 3 byte1) 4) (u8_shr (u8_and 240 byte2) 4)) in
      let o3 := u8_shl (u8_and 15 byte2) 2 in
      let+ c1 := t_step 0 (base64_char o1) in
      let+ c2 := t_step 0 (base64_char o2) in
      let+ c3 := t_step 0 (base64_char o3) in
      t_ok (nl ++ [c1; c2; c3; 61])
    | [] =>
      let o1 := u8_shr (u8_and 252 byte1) 2 in
      let o2 := u8_shl (u8_and 3 byte1) 4 in
      let+ c1 := t_step 0 (base64_char o1) in
      let+ c2 := t_step 0 (base64_char o2) in
      t_ok (nl ++ [c1; c2; 61; 61])
    end
  end.
Definition t_encode_base64 (E : env) (data : bytes) : timed bytes := t_encode_base64_loop E data 0.
(* base64.rs:83-95, 97-109, 111-124, 126-142 *)
Fixpoint t_scan {R} (n : nat) (data : bytes) (k i offset : nat) (stop : N -> option R)
  : timed (nat * nat * option R) :=
  match n with
  | O => (Crash OutOfFuel, 0%nat)
  | S n' =>
    let+ _ := t_step 1 (Ok tt) in
    match nth_error data (i + k) with
    | None => t_ok (i, offset, None)
    | Some b =>
      match stop b with
      | Some r => t_ok (i, offset, Some r)
      | None => t_scan n' data k (S i) (S offset) stop
      end
    end
  end.
(* base64.rs:82-169 *)
Fixpoint t_decode_base64_loop (E : env) (n : nat) (data : bytes) (i offset : nat) : timed bytes :=
  match n with
  | O => (Crash OutOfFuel, 0%nat)
  | S n' =>
    let fuel := S (length data) in
    let+ (i, offset, b1) := t_scan fuel data 0 i offset get_value_encoded in
    match b1 with
    | None =>
      let+ len := t_step 0 (usize_sub i offset) in
      t_ok (firstn len data)
    | Some b1 =>
      let+ (i, offset, b2) := t_scan fuel data 1 i offset get_value_encoded in
      match b2 with
      | None => t_err (Unknown "Missing at least 3 bytes")
      | Some b2 =>
        let+ (i, offset, b3) := t_scan fuel data 2 i offset stop3 in
        match b3 with
        | None => t_err (Unknown "Missing at least 2 bytes")
        | Some b3 =>
          let+ (i, offset, b4) := t_scan fuel data 3 i offset (stop4 b3) in
          match b4 with
          | None => t_err (Unknown "Missing at least 1 byte")
          | Some b4 =>
            let+ b4 := t_step 0 b4 in
            let+ p := t_step 0 (usize_sub i offset) in
            let+ v := t_step 0 (u8_add E (u8_shl b1 2) (u8_shr (u8_and b2 48) 4)) in
            let+ data := t_step 1 (unchecked_set data p v) in
            let+ (data, offset) :=
              match b3 with
              | Some b3 =>
                let+ p := t_step 0 (usize_sub (i + 1) offset) in
                let+ v := t_step 0 (u8_add E (u8_shl (u8_and b2 15) 4) (u8_shr (u8_and b3 60) 2)) in
                let+ data := t_step 1 (unchecked_set data p v) in
                match b4 with
                | Some b4 =>
                  let+ p := t_step 0 (usize_sub (i + 2) offset) in
                  let+ v := t_step 0 (u8_add E (u8_shl (u8_and b3 3) 6) b4) in
                  let+ data := t_step 1 (unchecked_set data p v) in
                  t_ok (data, offset)
                | None => t_ok (data, (offset + 1)%nat)
                end
              | None => t_ok (data, (offset + 2)%nat)
              end in
            t_decode_base64_loop E n' data (i + 4) (offset + 1)
          end
        end
      end
    end
  end.
(* base64.rs:78-172 *)
Definition t_decode_base64 (E : env) (data : bytes) : timed bytes :=
  t_decode_base64_loop E (S (length data)) data 0 0.

(* ---- percent_encoding.rs ---- *)
(* percent_encoding.rs:43-68 *)
Definition t_decode_percent (E : env) (input : bytes) (percent : nat) : timed bytes :=
  let+ _ := t_step 1 (Ok tt) in
  match nth_error input (percent + 1), nth_error input (percent + 2) with
  | Some first, Some second =>
    match from_hex first, from_hex second with
    | Some first, Some second =>
      let+ t := t_step 0 (u8_mul E first 16) in
      let+ n := t_step 0 (u8_add E t second) in
      let+ input := t_step 0 (unchecked_set input percent n) in
      let+ (_, input) := t_remove input (percent + 2) in
      let+ (_, input) := t_remove input (percent + 1) in
      t_ok input
    | _, _ => t_ok input
    end
  | _, _ => t_ok input
  end.
(* percent_encoding.rs:43 *)
Fixpoint t_decode_percents (E : env) (input : bytes) (ps : list nat) : timed bytes :=
  match ps with
  | [] => t_ok input
  | p :: ps' => let+ input := t_decode_percent E input p in t_decode_percents E input ps'
  end.
(* percent_encoding.rs:4-96: the search for the charset (28-34) is bounded by the list and not
   counted; one for each byte in the search for the '%' bytes (36-41), and one for each byte
   decoded by the charset (71-93), which belongs to textcode or to the standard library *)
Definition t_decode_parameter (E : env) (input : bytes) (charset : bytes) : timed bytes :=
  match find_charset charset with
  | None => t_step 1 (str_unchecked input)
  | Some k =>
    let+ percents := t_step (S (length input)) (Ok (percents_from 0 input)) in
    let+ input := t_decode_percents E input (rev percents) in
    t_step (S (length input)) (decode_charset E k input)
  end.

(* ---- entity.rs, multipart.rs ---- *)
(* entity.rs:236-254 *)
Definition t_decode_value (E : env) (value : bytes) (enc : encoding_t) : timed bytes :=
  let+ _ := t_step 1 (Ok tt) in
  match enc with
  | Base64Enc => t_decode_base64 E value
  | SevenBit => t_ok value
  | HeightBit => t_ok value
  | QuotedPrintableEnc => t_decode_qp E value
  | UnknownEnc _ => t_err (Unknown "Unknown format")
  | Binary => t_ok value
  end.
(* the bytes that two texts have in common *)
Fixpoint common (a b : bytes) : nat :=
  match a, b with
  | x :: a, y :: b => if x =? y then S (common a b) else O
  | _, _ => O
  end.
(* slice.get(a..b) == Some(p) *)
Definition t_slice_is (i : bytes) (a b : nat) (p : bytes) : timed bool :=
  t_step (S (common (skipn a i) p)) (Ok (slice_is i a b p)).
(* && evaluates its right hand side only if the left hand side holds *)
Definition t_and (x : timed bool) (y : timed bool) : timed bool :=
  let+ a := x in if a : bool then y else t_ok false.
(* multipart.rs:17-25 *)
Fixpoint t_find_boundary (n idx : nat) (i boundary : bytes) : timed (option nat) :=
  match n with
  | O => t_ok None
  | S n' =>
    let+ _ := t_step 1 (Ok tt) in
    let+ found := t_and (t_and (t_slice_is i idx (idx + 4) (CRLF ++ bs "--"))
       (t_slice_is i (idx + 4) (idx + 4 + length boundary) boundary))
       (t_slice_is i (idx + 4 + length boundary) (idx + (2 + 2 + length boundary + 2)) CRLF) in
    if found : bool then t_ok (Some idx) else t_find_boundary n' (S idx) i boundary
  end.
(* multipart.rs:5-28 *)
Definition t_before_boundary_idx (i boundary : bytes) : timed (nat * nat) :=
  let full := (2 + 2 + length boundary + 2)%nat in
  let+ found := t_and (t_and (t_and (t_step 1 (Ok (full - 2 <=? length i)%nat))
     (t_slice_is i 0 2 (bs "--")))
     (t_slice_is i 2 (2 + length boundary) boundary))
     (t_slice_is i (2 + length boundary) (full - 2) CRLF) in
  if found : bool then t_ok (0%nat, (full - 2)%nat)
  else let+ idx := t_find_boundary (length i) 0 i boundary in
       match idx with
       | Some idx => t_ok (idx, full)
       | None => t_err (Unknown "boundary not found")
       end.
(* multipart.rs:30-44 *)
Definition t_before_boundary (boundary : bytes) : timed_parser bytes := fun i =>
  let+ (before, len) := t_before_boundary_idx i boundary in
  let+ r := t_step 0 (unchecked_from i (before + len)) in
  let+ p := t_step 0 (unchecked_to i before) in
  t_ok (r, p).
(* multipart.rs:46-59 *)
Fixpoint t_find_closing (n idx : nat) (i boundary : bytes) : timed (option nat) :=
  match n with
  | O => t_ok None
  | S n' =>
    let+ _ := t_step 1 (Ok tt) in
    let+ found := t_and (t_and (t_slice_is i idx (idx + 4) (CRLF ++ bs "--"))
       (t_slice_is i (idx + 4) (idx + 4 + length boundary) boundary))
       (t_slice_is i (idx + 4 + length boundary) (idx + (2 + 2 + length boundary + 2 + 2)) (bs "--" ++ CRLF)) in
    if found : bool then t_ok (Some idx) else t_find_closing n' (S idx) i boundary
  end.
(* multipart.rs:46-75 *)
Definition t_before_closing_boundary (boundary : bytes) : timed_parser bytes := fun i =>
  let+ idx := t_find_closing (length i) 0 i boundary in
  let+ idx := t_step 0 (ok_or idx (Unknown "closing boundary not found")) in
  let+ r := t_step 0 (unchecked_from i (idx + (2 + 2 + length boundary + 2 + 2))) in
  let+ p := t_step 0 (unchecked_to i idx) in
  t_ok (r, p).
(* multipart.rs:81-87: the texts of the parts; parts.remove(0) moves the parts *)
Definition t_split_parts (boundary i : bytes) : timed (list bytes) :=
  let+ (i, parts) := t_many (t_before_boundary boundary) i in
  let+ (_, last_part) := t_before_closing_boundary boundary i in
  let+ (_, parts) := t_step (S (length parts)) (vec_remove (parts ++ [last_part]) 0) in
  t_ok parts.

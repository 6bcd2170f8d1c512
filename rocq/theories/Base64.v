(* parsing/mime/base64.rs *)
From Verif Require Import Base.
Local Open Scope N_scope.

(* base64.rs:3-8 *)
Definition BASE64_MAP : bytes :=
  bs "ABCDEFGHIJKLMNOPQRSTUVWXYZabcdefghijklmnopqrstuvwxyz0123456789+/".

(* *BASE64_MAP.get_unchecked(n as usize) *)
Definition base64_char (n : N) : res N := unchecked_get BASE64_MAP (N.to_nat n).

(* base64.rs:10-65: [line] is line_lenght. The iterator is consumed three bytes at
   a time; `unreachable!()` (57) needs (None, Some(_)) from a slice iterator, which
   does not exist. *)
Fixpoint encode_base64_loop (E : env) (data : bytes) (line : nat) : res bytes :=
  match data with
  | [] => Ok []
  | byte1 :: rest1 =>
    let nl := if (72 <=? line)%nat then CRLF else [] in
    let line := if (72 <=? line)%nat then 0%nat else line in
    match rest1 with
    | byte2 :: byte3 :: rest =>
      let o1 := u8_shr (u8_and 252 byte1) 2 in
      let* o2 := u8_add E (u8_shl (u8_and 3 byte1) 4) (u8_shr (u8_and 240 byte2) 4) in
      let* o3 := u8_add E (u8_shl (u8_and 15 byte2) 2) (u8_shr (u8_and 192 byte3) 6) in
      let o4 := u8_and 63 byte3 in
      let* c1 := base64_char o1 in
      let* c2 := base64_char o2 in
      let* c3 := base64_char o3 in
      let* c4 := base64_char o4 in
      let* r := encode_base64_loop E rest (line + 4)%nat in
      Ok (nl ++ [c1; c2; c3; c4] ++ r)
    | [byte2] =>
      let o1 := u8_shr (u8_and 252 byte1) 2 in
      let* o2 := u8_add E (u8_shl (u8_and 3 byte1) 4) (u8_shr (u8_and 240 byte2) 4) in
      let o3 := u8_shl (u8_and 15 byte2) 2 in
      let* c1 := base64_char o1 in
      let* c2 := base64_char o2 in
      let* c3 := base64_char o3 in
      Ok (nl ++ [c1; c2; c3; 61])
    | [] =>
      let o1 := u8_shr (u8_and 252 byte1) 2 in
      let o2 := u8_shl (u8_and 3 byte1) 4 in
      let* c1 := base64_char o1 in
      let* c2 := base64_char o2 in
      Ok (nl ++ [c1; c2; 61; 61])
    end
  end.

Definition encode_base64 (E : env) (data : bytes) : res bytes := encode_base64_loop E data 0.

(* base64.rs:67-76; the arms' u8 arithmetic stays between 0 and 63 *)
Definition get_value_encoded (c : N) : option N :=
  if (65 <=? c) && (c <=? 90) then Some (c - 65)
  else if (97 <=? c) && (c <=? 122) then Some (26 + (c - 97))
  else if (48 <=? c) && (c <=? 57) then Some (26 * 2 + (c - 48))
  else if c =? 43 then Some 62
  else if c =? 47 then Some 63
  else None.

(* the four inner loops (83-95, 97-109, 111-124, 126-142): look at data[i+k], stop if
   [stop] says so, otherwise i += 1, offset += 1. [None]: the end was reached. *)
Fixpoint scan {R} (n : nat) (data : bytes) (k i offset : nat) (stop : N -> option R)
  : res (nat * nat * option R) :=
  match n with
  | O => Crash OutOfFuel
  | S n' =>
    match nth_error data (i + k) with
    | None => Ok (i, offset, None)
    | Some b =>
      match stop b with
      | Some r => Ok (i, offset, Some r)
      | None => scan n' data k (S i) (S offset) stop
      end
    end
  end.

(* base64.rs:111-124 *)
Definition stop3 (b : N) : option (option N) :=
  if b =? 61 then Some None
  else match get_value_encoded b with Some v => Some (Some v) | None => None end.

(* base64.rs:126-142 *)
Definition stop4 (b3 : option N) (b : N) : option (res (option N)) :=
  if b =? 61 then Some (Ok None)
  else match get_value_encoded b with
       | Some v => match b3 with
                   | None => Some (Err (Unknown "Data after end of data"))
                   | Some _ => Some (Ok (Some v))
                   end
       | None => None
       end.

(* base64.rs:82-169: 'main loop, then truncate *)
Fixpoint decode_base64_loop (E : env) (n : nat) (data : bytes) (i offset : nat) : res bytes :=
  match n with
  | O => Crash OutOfFuel
  | S n' =>
    let fuel := S (length data) in
    let* (i, offset, b1) := scan fuel data 0 i offset get_value_encoded in
    match b1 with
    | None =>
      (* base64.rs:169 data.truncate(i - offset) *)
      let* len := usize_sub i offset in
      Ok (firstn len data)
    | Some b1 =>
      let* (i, offset, b2) := scan fuel data 1 i offset get_value_encoded in
      match b2 with
      | None => Err (Unknown "Missing at least 3 bytes")
      | Some b2 =>
        let* (i, offset, b3) := scan fuel data 2 i offset stop3 in
        match b3 with
        | None => Err (Unknown "Missing at least 2 bytes")
        | Some b3 =>
          let* (i, offset, b4) := scan fuel data 3 i offset (stop4 b3) in
          match b4 with
          | None => Err (Unknown "Missing at least 1 byte")
          | Some b4 =>
            let* b4 := b4 in
            (* base64.rs:150-164 *)
            let* p := usize_sub i offset in
            let* v := u8_add E (u8_shl b1 2) (u8_shr (u8_and b2 48) 4) in
            let* data := unchecked_set data p v in
            let* (data, offset) :=
              match b3 with
              | Some b3 =>
                let* p := usize_sub (i + 1) offset in
                let* v := u8_add E (u8_shl (u8_and b2 15) 4) (u8_shr (u8_and b3 60) 2) in
                let* data := unchecked_set data p v in
                match b4 with
                | Some b4 =>
                  let* p := usize_sub (i + 2) offset in
                  let* v := u8_add E (u8_shl (u8_and b3 3) 6) b4 in
                  let* data := unchecked_set data p v in
                  Ok (data, offset)
                | None => Ok (data, (offset + 1)%nat)
                end
              | None => Ok (data, (offset + 2)%nat)
              end in
            decode_base64_loop E n' data (i + 4) (offset + 1)
          end
        end
      end
    end
  end.

(* base64.rs:78-172 *)
Definition decode_base64 (E : env) (data : bytes) : res bytes :=
  decode_base64_loop E (S (length data)) data 0 0.

(* parsing/mime/quoted_printables.rs *)
From Verif Require Import Base.
Local Open Scope N_scope.

(* quoted_printables.rs:2-4 *)
Definition litteral_repr_possible (c : N) : bool :=
  ((33 <=? c) && (c <=? 60)) || ((62 <=? c) && (c <=? 126)).

(* data.get(k) == Some(&b) *)
Definition get_is (data : bytes) (k : nat) (b : N) : bool :=
  match nth_error data k with Some x => x =? b | None => false end.

(* quoted_printables.rs:40-46 *)
Definition to_hex (E : env) (n : N) : res N :=
  if n <=? 9 then u8_add E 48 n
  else if n <=? 15 then (let* t := u8_add E 65 n in u8_sub E t 10)
  else Crash (Panic "unreachable").

(* quoted_printables.rs:12-56 *)
Fixpoint encode_qp_loop (E : env) (n : nat) (data : bytes) (idx line : nat) : res bytes :=
  match n with
  | O => Crash OutOfFuel
  | S n' =>
    match nth_error data idx with
    | None => Ok data
    | Some byte =>
      let* (data, idx, line) :=
        if (72 <=? line)%nat then
          let* data := vec_insert data idx 10 in
          let* data := vec_insert data idx 13 in
          let* data := vec_insert data idx 61 in
          Ok (data, (idx + 3)%nat, 0%nat)
        else Ok (data, idx, line) in
      if litteral_repr_possible byte then
        encode_qp_loop E n' data (idx + 1) (line + 1)
      else if ((byte =? 9) || (byte =? 32))
              && match nth_error data (idx + 1) with Some c => negb (c =? 13) | None => false end then
        encode_qp_loop E n' data (idx + 1) (line + 1)
      else if (byte =? 13) && get_is data (idx + 1) 10 then
        encode_qp_loop E n' data (idx + 2) 0
      else
        let* (_, data) := vec_remove data idx in
        let* lo := to_hex E (byte mod 16) in
        let* data := vec_insert data idx lo in
        let* d := u8_sub E byte (byte mod 16) in
        let* hi := to_hex E (d / 16) in
        let* data := vec_insert data idx hi in
        let* data := vec_insert data idx 61 in
        encode_qp_loop E n' data (idx + 3) (line + 3)
    end
  end.

(* quoted_printables.rs:7-59 *)
Definition encode_qp (E : env) (data : bytes) : res bytes :=
  encode_qp_loop E (S (length data)) data 0 0.

(* quoted_printables.rs:74-81, 122-129, percent_encoding.rs:44-51; the u8
   arithmetic of the arms stays below 16 (10 + n <= 112) *)
Definition from_hex (n : N) : option N :=
  if (48 <=? n) && (n <=? 57) then Some (n - 48)
  else if (65 <=? n) && (n <=? 70) then Some (10 + n - 65)
  else if (97 <=? n) && (n <=? 102) then Some (10 + n - 97)
  else None.

(* quoted_printables.rs:87-90, 98-101, 135-138, 146-149:
   data[idx] = 189; insert 191; insert 239 *)
Definition put_replacement (data : bytes) (idx : nat) : res bytes :=
  let* data := vec_set data idx 189 in
  let* data := vec_insert data idx 191 in
  vec_insert data idx 239.

(* quoted_printables.rs:68-94 and 116-142 (identical): the branch for `=`;
   returns the data and the new idx *)
Definition decode_escape (E : env) (data : bytes) (idx : nat) : res (bytes * nat) :=
  if get_is data (idx + 1) 13 && get_is data (idx + 2) 10 then
    let* data := vec_drain data idx (idx + 3) in
    Ok (data, idx)
  else if (idx + 2 <? length data)%nat then
    let* (first, data) := vec_remove data (idx + 1) in
    let* (second, data) := vec_remove data (idx + 1) in
    match from_hex first, from_hex second with
    | Some first, Some second =>
      let* t := u8_mul E first 16 in
      let* v := u8_add E t second in
      let* data := vec_set data idx v in
      Ok (data, (idx + 1)%nat)
    | _, _ =>
      let* data := put_replacement data idx in
      Ok (data, (idx + 3)%nat)
    end
  else Ok (data, (idx + 1)%nat).

(* quoted_printables.rs:64-103 *)
Fixpoint decode_qp_loop (E : env) (n : nat) (data : bytes) (idx : nat) : res bytes :=
  match n with
  | O => Crash OutOfFuel
  | S n' =>
    match nth_error data idx with
    | None => Ok data
    | Some byte =>
      if litteral_repr_possible byte || (byte =? 32) || (byte =? 9) then
        decode_qp_loop E n' data (idx + 1)
      else if byte =? 61 then
        let* (data, idx) := decode_escape E data idx in
        decode_qp_loop E n' data idx
      else if (byte =? 13) && get_is data (idx + 1) 10 then
        decode_qp_loop E n' data (idx + 2)
      else
        let* data := put_replacement data idx in
        decode_qp_loop E n' data (idx + 3)
    end
  end.

(* quoted_printables.rs:61-106 *)
Definition decode_qp (E : env) (data : bytes) : res bytes :=
  decode_qp_loop E (S (length data)) data 0.

(* quoted_printables.rs:111-151 *)
Fixpoint decode_header_qp_loop (E : env) (n : nat) (data : bytes) (idx : nat) : res bytes :=
  match n with
  | O => Crash OutOfFuel
  | S n' =>
    match nth_error data idx with
    | None => Ok data
    | Some byte =>
      if byte =? 95 then
        let* data := vec_set data idx 32 in
        decode_header_qp_loop E n' data (idx + 1)
      else if byte =? 61 then
        let* (data, idx) := decode_escape E data idx in
        decode_header_qp_loop E n' data idx
      else if (32 <=? byte) && (byte <=? 126) then
        decode_header_qp_loop E n' data (idx + 1)
      else
        let* data := put_replacement data idx in
        decode_header_qp_loop E n' data (idx + 3)
    end
  end.

(* quoted_printables.rs:108-154 *)
Definition decode_header_qp (E : env) (data : bytes) : res bytes :=
  decode_header_qp_loop E (S (length data)) data 0.

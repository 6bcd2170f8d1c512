(* Foundations of the model: bytes, results, crashes, build configuration,
   u8 arithmetic and the Vec/slice operations used by the crate. *)
From Coq Require Export String Ascii Arith NArith Bool List.
Export ListNotations.
Open Scope list_scope.
Open Scope N_scope.
Open Scope nat_scope.

(* A Rust u8 is an N; where it matters, theorems assume [wf_bytes]. *)
Definition byte := N.
Definition bytes := list N.

Definition wf_byte (b : byte) : Prop := (b < 256)%N.
Definition wf_bytes (l : bytes) : Prop := Forall wf_byte l.

(* Byte-string literals: [bs "From:"] is Rust's b"From:". *)
Definition bs (s : string) : bytes := map N_of_ascii (list_ascii_of_string s).

Definition CR : byte := 13%N.
Definition LF : byte := 10%N.
Definition CRLF : bytes := [13; 10]%N.
Definition DQUOTE : byte := 34%N.
Definition BACKSLASH : byte := 92%N.

(* error.rs:1-7  enum Error *)
Inductive error :=
| Explicit (msg : string)
| Unknown (msg : string)
| DuplicateHeader (name : string)
| MissingHeader (name : string).

(* Everything a Rust execution can do other than return a value.
   [Panic]: overflow in a checked build, index out of range, unreachable!,
   failed debug_assert. [Undefined]: out-of-range unchecked access or
   from_utf8_unchecked on invalid UTF-8. [OutOfFuel]: a loop or recursion
   that exceeds the bound that terminating executions respect. *)
Inductive crash :=
| Panic (why : string)
| Undefined (why : string)
| OutOfFuel.

(* A Rust call: Result<A, Error>, or a crash. *)
Inductive res (A : Type) :=
| Ok (a : A)
| Err (e : error)
| Crash (c : crash).
Arguments Ok {A} a.
Arguments Err {A} e.
Arguments Crash {A} c.

(* The `?` operator. *)
Definition bind {A B} (x : res A) (k : A -> res B) : res B :=
  match x with
  | Ok a => k a
  | Err e => Err e
  | Crash c => Crash c
  end.

Notation "'let*' p := e 'in' k" := (bind e (fun p => k))
  (at level 200, p pattern, e at level 100, k at level 200, right associativity).

(* `if let Ok(a) = x { k(a) } else { f }` : an Err is caught, a crash is not. *)
Definition attempt {A B} (x : res A) (k : A -> res B) (f : res B) : res B :=
  match x with
  | Ok a => k a
  | Err _ => f
  | Crash c => Crash c
  end.

(* Result::map_err with a constant error. *)
Definition map_err {A} (x : res A) (e : error) : res A :=
  match x with Ok a => Ok a | Err _ => Err e | Crash c => Crash c end.

(* Option::ok_or *)
Definition ok_or {A} (x : option A) (e : error) : res A :=
  match x with Some a => Ok a | None => Err e end.

(* error.rs:24  type Res<'a, T> = Result<(&'a [u8], T), Error>: a parser maps
   the input to the remaining input and a value. *)
Definition parser (A : Type) := bytes -> res (bytes * A).

(* ------------------------------------------------------------------ *)
(* Build configuration and externals.                                  *)

(* The charsets that are decoded by the external crate `textcode`
   (encoded_headers.rs:94-110, entity.rs:64-80, percent_encoding.rs:75-91). *)
Inductive charset_id :=
| ISO8859 (n : N)      (* 1..11, 13..16 *)
| ISO6937
| GB2312.

(* Cargo.toml:16-37 features. `mime` stands for `mime` together with
   `content-disposition`: entity.rs:31-40 builds RawEntity with a `disposition`
   field that exists only under content-disposition, so mime alone does not
   compile. `debug` is overflow-checks/debug-assertions of the build profile. *)
Record env := {
  f_from : bool; f_sender : bool; f_subject : bool; f_date : bool;
  f_to : bool; f_cc : bool; f_bcc : bool; f_message_id : bool;
  f_in_reply_to : bool; f_references : bool; f_reply_to : bool;
  f_comments : bool; f_keywords : bool; f_trace : bool;
  f_mime : bool; f_unrecognized_headers : bool; f_compatibility_fixes : bool;
  debug : bool;
  (* textcode's decode_to_string for a charset: an arbitrary function *)
  textcode : charset_id -> bytes -> bytes;
  (* iteration order of a HashMap holding these keys: arbitrary *)
  hash_order : list bytes -> list bytes
}.

(* ------------------------------------------------------------------ *)
(* u8 arithmetic: overflow panics in checked builds and wraps otherwise. *)
Definition u8_add (E : env) (a b : N) : res N :=
  if (a + b <? 256)%N then Ok (a + b)%N
  else if debug E then Crash (Panic "attempt to add with overflow")
  else Ok ((a + b) mod 256)%N.

Definition u8_mul (E : env) (a b : N) : res N :=
  if (a * b <? 256)%N then Ok (a * b)%N
  else if debug E then Crash (Panic "attempt to multiply with overflow")
  else Ok ((a * b) mod 256)%N.

Definition u8_sub (E : env) (a b : N) : res N :=
  if (b <=? a)%N then Ok (a - b)%N
  else if debug E then Crash (Panic "attempt to subtract with overflow")
  else Ok ((256 + a - b) mod 256)%N.

(* `<<` on u8 by a constant below 8: bits shifted out are lost, no panic. *)
Definition u8_shl (a n : N) : N := ((N.shiftl a n) mod 256)%N.
Definition u8_shr (a n : N) : N := N.shiftr a n.
Definition u8_and (a b : N) : N := N.land a b.

(* u8::checked_mul / checked_add *)
Definition u8_checked_mul (a b : N) : option N :=
  if (a * b <? 256)%N then Some (a * b)%N else None.
Definition u8_checked_add (a b : N) : option N :=
  if (a + b <? 256)%N then Some (a + b)%N else None.

(* usize subtraction. In an unchecked build it wraps to a huge index; the model
   calls both cases a crash (it never happens, see the safety theorems). *)
Definition usize_sub (a b : nat) : res nat :=
  if a <? b then Crash (Panic "attempt to subtract with overflow") else Ok (a - b).

(* ------------------------------------------------------------------ *)
(* Slices and Vec.                                                      *)

(* slice::starts_with *)
Fixpoint starts_with (i p : bytes) : bool :=
  match p, i with
  | [], _ => true
  | x :: p', y :: i' => (x =? y)%N && starts_with i' p'
  | _ :: _, [] => false
  end.

(* equality of byte slices / strings *)
Fixpoint bytes_eqb (a b : bytes) : bool :=
  match a, b with
  | [], [] => true
  | x :: a', y :: b' => (x =? y)%N && bytes_eqb a' b'
  | _, _ => false
  end.

(* slice.get_unchecked(n..) and get_unchecked(..n) *)
Definition unchecked_from (i : bytes) (n : nat) : res bytes :=
  if length i <? n then Crash (Undefined "get_unchecked") else Ok (skipn n i).
Definition unchecked_to (i : bytes) (n : nat) : res bytes :=
  if length i <? n then Crash (Undefined "get_unchecked") else Ok (firstn n i).

(* &input[n..] (checked indexing) *)
Definition index_from (i : bytes) (n : nat) : res bytes :=
  if length i <? n then Crash (Panic "range start index out of range") else Ok (skipn n i).

(* slice.get_unchecked(k) *)
Definition unchecked_get (i : bytes) (k : nat) : res N :=
  match nth_error i k with Some b => Ok b | None => Crash (Undefined "get_unchecked") end.

(* slice.get(a..b) *)
Definition slice_get (i : bytes) (a b : nat) : option bytes :=
  if (a <=? b) && (b <=? length i) then Some (firstn (b - a) (skipn a i)) else None.

(* comparison of slice.get(a..b) with Some(x) *)
Definition slice_is (i : bytes) (a b : nat) (x : bytes) : bool :=
  match slice_get i a b with Some s => bytes_eqb s x | None => false end.

(* v[k] = x, with bounds check *)
Definition list_update (l : bytes) (k : nat) (x : N) : bytes :=
  firstn k l ++ x :: skipn (S k) l.
Definition vec_set (l : bytes) (k : nat) (x : N) : res bytes :=
  if k <? length l then Ok (list_update l k x) else Crash (Panic "index out of bounds").
(* *v.get_unchecked_mut(k) = x *)
Definition unchecked_set (l : bytes) (k : nat) (x : N) : res bytes :=
  if k <? length l then Ok (list_update l k x) else Crash (Undefined "get_unchecked_mut").
(* Vec::insert *)
Definition vec_insert (l : bytes) (k : nat) (x : N) : res bytes :=
  if k <=? length l then Ok (firstn k l ++ x :: skipn k l)
  else Crash (Panic "insertion index out of range").
(* Vec::remove: the removed element and the rest *)
Definition vec_remove {A} (l : list A) (k : nat) : res (A * list A) :=
  match nth_error l k with
  | Some x => Ok (x, firstn k l ++ skipn (S k) l)
  | None => Crash (Panic "removal index out of range")
  end.
(* Vec::drain(a..b), dropped *)
Definition vec_drain (l : bytes) (a b : nat) : res bytes :=
  if (a <=? b) && (b <=? length l) then Ok (firstn a l ++ skipn b l)
  else Crash (Panic "drain range out of range").

(* ------------------------------------------------------------------ *)
(* HashMap<Cow<str>, V>: an association list; only lookups are observable,
   except for iteration, whose order is [hash_order]. *)
Fixpoint map_get {V} (m : list (bytes * V)) (k : bytes) : option V :=
  match m with
  | [] => None
  | (k', v) :: m' => if bytes_eqb k k' then Some v else map_get m' k
  end.

Fixpoint map_insert {V} (m : list (bytes * V)) (k : bytes) (v : V) : list (bytes * V) :=
  match m with
  | [] => [(k, v)]
  | (k', v') :: m' => if bytes_eqb k k' then (k', v) :: m' else (k', v') :: map_insert m' k v
  end.

(* u8::to_ascii_lowercase / is_ascii_uppercase etc. *)
Definition is_upper (b : N) : bool := (65 <=? b)%N && (b <=? 90)%N.
Definition is_lower (b : N) : bool := (97 <=? b)%N && (b <=? 122)%N.
Definition to_lower (b : N) : N := if is_upper b then (b + 32)%N else b.
Definition to_upper (b : N) : N := if is_lower b then (b - 32)%N else b.

(* common.rs:4-15 `lowercase` and slice::to_ascii_lowercase (time.rs:5,25).
   lowercase() copies only if some char is_uppercase (Unicode); the copy changes
   ASCII capitals only, and ASCII capitals are is_uppercase, so the value is
   always the ASCII lowercase of the argument. *)
Definition lowercase (s : bytes) : bytes := map to_lower s.

(* The charset tables, identical in encoded_headers.rs:90-112, entity.rs:59-82 and
   percent_encoding.rs:5-27/71-93. *)
From Verif Require Import Base Utf8.

Inductive charset_kind := Utf8OrAscii | External (c : charset_id).

Definition charset_table : list (bytes * charset_kind) :=
  [ (bs "utf-8", Utf8OrAscii);
    (bs "us-ascii", Utf8OrAscii);
    (bs "iso-8859-1", External (ISO8859 1));
    (bs "iso-8859-2", External (ISO8859 2));
    (bs "iso-8859-3", External (ISO8859 3));
    (bs "iso-8859-4", External (ISO8859 4));
    (bs "iso-8859-5", External (ISO8859 5));
    (bs "iso-8859-6", External (ISO8859 6));
    (bs "iso-8859-7", External (ISO8859 7));
    (bs "iso-8859-8", External (ISO8859 8));
    (bs "iso-8859-9", External (ISO8859 9));
    (bs "iso-8859-10", External (ISO8859 10));
    (bs "iso-8859-11", External (ISO8859 11));
    (bs "iso-8859-13", External (ISO8859 13));
    (bs "iso-8859-14", External (ISO8859 14));
    (bs "iso-8859-15", External (ISO8859 15));
    (bs "iso-8859-16", External (ISO8859 16));
    (bs "iso-6937", External ISO6937);
    (bs "gb2312", External GB2312) ].

(* `match charset { ... }`: None is the `_` arm *)
Definition find_charset (name : bytes) : option charset_kind := map_get charset_table name.

(* the arms of that match *)
Definition decode_charset (E : env) (k : charset_kind) (value : bytes) : res bytes :=
  match k with
  | Utf8OrAscii => str_checked value (Unknown "Invalid text encoding")
  | External c => Ok (textcode E c value)
  end.

(* The crate's own unit tests, run against the model (each Example is one assertion
   of a #[test] in /repo). They validate the transcription; they are not the
   properties. *)
From Verif Require Import Base Utf8 CharSets Combinators Whitespace QuotedString Base64 QuotedPrintable
  Charset EncodedWord Percent Common Time Address MimeFields Fields Message Entity Email Envs.

Definition is_ok {A} (r : res A) : bool := match r with Ok _ => true | _ => false end.
Definition is_err {A} (r : res A) : bool := match r with Err _ => true | _ => false end.
Definition val_is (r : res (bytes * bytes)) (v : bytes) : bool :=
  match r with Ok (_, x) => bytes_eqb x v | _ => false end.
Definition bytes_is (r : res bytes) (v : bytes) : bool :=
  match r with Ok x => bytes_eqb x v | _ => false end.
Definition rest_is {A} (r : res (bytes * A)) (v : bytes) : bool :=
  match r with Ok (x, _) => bytes_eqb x v | _ => false end.
Definition N_is (r : res (bytes * N)) (v : N) : bool :=
  match r with Ok (_, x) => N.eqb x v | _ => false end.
Definition sat {A} (r : res (bytes * A)) (f : A -> bool) : bool :=
  match r with Ok (_, x) => f x | _ => false end.
Fixpoint list_eqb (a b : list bytes) : bool :=
  match a, b with
  | [], [] => true
  | x :: a', y :: b' => bytes_eqb x y && list_eqb a' b'
  | _, _ => false
  end.
Definition D := env_all_debug.

(* character_sets.rs:134- *)
Example t1 : is_wsp 32%N && is_wsp 9%N && negb (is_wsp 97%N) && negb (is_wsp 101%N) = true.
Proof. vm_compute. reflexivity. Qed.

(* combinators.rs:269-296 *)
Example t2 : sat (optional (tag (bs "efg") "") (bs "abcdef")) (fun x => match x with None => true | _ => false end) = true.
Proof. vm_compute. reflexivity. Qed.
Example t3 : sat (optional (tag (bs "abc") "") (bs "abcdef")) (fun x => match x with None => false | _ => true end) = true.
Proof. vm_compute. reflexivity. Qed.
Example t4 : sat (take_while is_wsp (bs "     abc")) (fun s => length s =? 5) = true.
Proof. vm_compute. reflexivity. Qed.
Example t5 : sat (take_while is_wsp (bs "abc")) (fun s => length s =? 0) = true.
Proof. vm_compute. reflexivity. Qed.
Example t6 : is_err (tag (bs "def") "" (bs "abc")) = true.
Proof. vm_compute. reflexivity. Qed.
Example t7 : is_ok (tag (bs "ab") "" (bs "abc")) = true.
Proof. vm_compute. reflexivity. Qed.
Example t8 : rest_is (tag (bs "abc") "" (bs "abc")) [] = true.
Proof. vm_compute. reflexivity. Qed.
Example t9 : is_err (tag (bs "Ab") "" (bs "abc")) = true.
Proof. vm_compute. reflexivity. Qed.
Example t10 : is_ok (tag_no_case D (bs "Ab") (bs "aB") "" (bs "abc")) = true.
Proof. vm_compute. reflexivity. Qed.

(* whitespaces.rs:102-150 *)
Example t11 : val_is (fws (bs "   test")) (bs "   ") = true.
Proof. vm_compute. reflexivity. Qed.
Example t12 : val_is (fws (bs " test")) (bs " ") = true.
Proof. vm_compute. reflexivity. Qed.
Example t13 : val_is (fws (bs "   " ++ CRLF ++ bs "  test")) (bs "     ") = true.
Proof. vm_compute. reflexivity. Qed.
Example t14 : is_err (fws (bs "  " ++ CRLF ++ bs "test")) = true.
Proof. vm_compute. reflexivity. Qed.
Example t15 : is_err (fws (CRLF ++ bs "test")) = true.
Proof. vm_compute. reflexivity. Qed.
Example t16 : is_err (fws (bs "test")) = true.
Proof. vm_compute. reflexivity. Qed.
Example t17 : val_is (ccontent (bs "abcde")) (bs "abcde") = true.
Proof. vm_compute. reflexivity. Qed.
Example t18 : val_is (ccontent (bs "ab)cde")) (bs "ab") = true.
Proof. vm_compute. reflexivity. Qed.
Example t19 : sat (comment (bs "(this is a comment)")) (fun _ => true) && rest_is (comment (bs "(this is a comment)")) [] = true.
Proof. vm_compute. reflexivity. Qed.
Example t20 : rest_is (comment (bs "(a comment) and a value")) (bs " and a value") = true.
Proof. vm_compute. reflexivity. Qed.
Example t21 : rest_is (comment (bs "(this is a comment (and another comment)) and a value")) (bs " and a value") = true.
Proof. vm_compute. reflexivity. Qed.
Example t22 : is_err (comment (bs "a value")) = true.
Proof. vm_compute. reflexivity. Qed.
Example t23 : is_err (comment (bs "(unclosed comment")) = true.
Proof. vm_compute. reflexivity. Qed.
Example t24 : val_is (cfws (bs "  (this is a comment)" ++ CRLF ++ bs " (this is a second comment)  value")) (bs "     ") = true.
Proof. vm_compute. reflexivity. Qed.
Example t25 : val_is (cfws (bs "  (this is a comment)" ++ CRLF ++ bs " (this is a second comment)" ++ CRLF ++ bs "  value")) (bs "     ") = true.
Proof. vm_compute. reflexivity. Qed.

(* quoted_string.rs:94-131 *)
Example t26 : is_ok (quoted_pair (bs "\rtest")) = true.
Proof. vm_compute. reflexivity. Qed.
Example t27 : val_is (quoted_pair (bs "\rtest")) (bs "r") = true.
Proof. vm_compute. reflexivity. Qed.
Example t28 : val_is (quoted_pair (bs "\ test")) (bs " ") = true.
Proof. vm_compute. reflexivity. Qed.
Example t29 : is_err (quoted_pair (bs "\")) = true.
Proof. vm_compute. reflexivity. Qed.
Example t30 : is_err (quoted_pair (bs "\" ++ [0]%N)) = true.
Proof. vm_compute. reflexivity. Qed.
Example t31 : is_err (quoted_pair (bs "test")) = true.
Proof. vm_compute. reflexivity. Qed.
Example t32 : val_is (quoted_string (bs " ""This\ is\ a\ test""")) (bs "This is a test") = true.
Proof. vm_compute. reflexivity. Qed.
Example t33 : val_is (quoted_string (CRLF ++ bs "  ""This\ is\ a\ test""  ")) (bs "This is a test") = true.
Proof. vm_compute. reflexivity. Qed.
Example t34 : val_is (quoted_string (CRLF ++ bs "  ""hey""  ")) (bs "hey") = true.
Proof. vm_compute. reflexivity. Qed.

(* base64.rs:178-249 *)
Example t35 : bytes_is (encode_base64 D (bs "That's a test!")) (bs "VGhhdCdzIGEgdGVzdCE=") = true.
Proof. vm_compute. reflexivity. Qed.
Example t36 : bytes_is (encode_base64 D (bs "Rust is the best language")) (bs "UnVzdCBpcyB0aGUgYmVzdCBsYW5ndWFnZQ==") = true.
Proof. vm_compute. reflexivity. Qed.
Example t37 : bytes_is (encode_base64 D (bs "I am french!")) (bs "SSBhbSBmcmVuY2gh") = true.
Proof. vm_compute. reflexivity. Qed.
Example t38 : bytes_is (encode_base64 D (bs "abcdefghi")) (bs "YWJjZGVmZ2hp") = true.
Proof. vm_compute. reflexivity. Qed.
Example t39 : bytes_is (encode_base64 D (bs "abcdefghij")) (bs "YWJjZGVmZ2hpag==") = true.
Proof. vm_compute. reflexivity. Qed.
Example t40 : bytes_is (encode_base64 D (bs "abcdefghijk")) (bs "YWJjZGVmZ2hpams=") = true.
Proof. vm_compute. reflexivity. Qed.
Example t41 : bytes_is (encode_base64 D (bs "abcdefghijkl")) (bs "YWJjZGVmZ2hpamts") = true.
Proof. vm_compute. reflexivity. Qed.
Example t42 : forallb (fun k => match unchecked_get BASE64_MAP k with Ok c => match get_value_encoded c with Some v => N.eqb v (N.of_nat k) | None => false end | _ => false end) [5;15;25;53;62;63] = true.
Proof. vm_compute. reflexivity. Qed.
Example t43 : bytes_is (decode_base64 D (bs "YWJjZGVmZ2hpamts")) (bs "abcdefghijkl") = true.
Proof. vm_compute. reflexivity. Qed.
Example t44 : bytes_is (decode_base64 D (bs "YWJjZGVmZ2hpag==")) (bs "abcdefghij") = true.
Proof. vm_compute. reflexivity. Qed.
Example t45 : bytes_is (decode_base64 D (bs "YWJjZGV*mZ2hpag==")) (bs "abcdefghij") = true.
Proof. vm_compute. reflexivity. Qed.
Example t46 : bytes_is (decode_base64 D (bs "YWJjZGV*******mZ2hpag==")) (bs "abcdefghij") = true.
Proof. vm_compute. reflexivity. Qed.
Example t47 : bytes_is (decode_base64 D (bs "***Y*WJ*jZ*GV*******mZ2**hp*ag=*=**")) (bs "abcdefghij") = true.
Proof. vm_compute. reflexivity. Qed.
Example t48 : bytes_is (decode_base64 D (bs "PGRpdiBkaXI9Imx0ciI+SGV5IMOpbW9qaSDwn5iNPC9kaXY+DQo=")) (bs "<div dir=""ltr"">Hey " ++ [195; 169]%N ++ bs "moji " ++ [240; 159; 152; 141]%N ++ bs "</div>" ++ CRLF) = true.
Proof. vm_compute. reflexivity. Qed.

(* quoted_printables.rs:160-187 *)
Example t49 : bytes_is (encode_qp D (bs "This was a triumph. Il " ++ [195; 169]%N ++ bs "tait une fois..." ++ CRLF ++ bs "And voil" ++ [195; 160]%N ++ bs " ! " ++ CRLF ++ bs "Simon")) (bs "This was a triumph. Il =C3=A9tait une fois..." ++ CRLF ++ bs "And voil=C3=A0 !=20" ++ CRLF ++ bs "Simon") = true.
Proof. vm_compute. reflexivity. Qed.
Example t50 : bytes_is (decode_qp D (bs "This was a triumph. Il =C3=A9tait une fois..." ++ CRLF ++ bs "And voil=C3=A0 !=20" ++ CRLF ++ bs "Simon")) (bs "This was a triumph. Il " ++ [195; 169]%N ++ bs "tait une fois..." ++ CRLF ++ bs "And voil" ++ [195; 160]%N ++ bs " ! " ++ CRLF ++ bs "Simon") = true.
Proof. vm_compute. reflexivity. Qed.
Example t51 : bytes_is (encode_qp D (bs "Now's the time for all folk to come to the aid of their country. Wtf this sentence is not long enough to test line-lenght limit.")) (bs "Now's the time for all folk to come to the aid of their country. Wtf thi=" ++ CRLF ++ bs "s sentence is not long enough to test line-lenght limit.") = true.
Proof. vm_compute. reflexivity. Qed.
Example t52 : bytes_is (decode_qp D (bs "Now's the time for all folk to come to the aid of their country. Wtf thi=" ++ CRLF ++ bs "s sentence is not long enough to test line-lenght limit.")) (bs "Now's the time for all folk to come to the aid of their country. Wtf this sentence is not long enough to test line-lenght limit.") = true.
Proof. vm_compute. reflexivity. Qed.

(* encoded_headers.rs:121-165 *)
Example t53 : val_is (encoded_word D (bs "=?iso-8859-1*en?q?this=20is=20some=20text?=")) (bs "this is some text") = true.
Proof. vm_compute. reflexivity. Qed.
Example t54 : val_is (encoded_word D (bs "=?utf-8*en?q?voici=20un=20peu=20de=20texte?=")) (bs "voici un peu de texte") = true.
Proof. vm_compute. reflexivity. Qed.
Example t55 : val_is (encoded_word D (bs "=?iso-8859-1?q?this=20is=20some=20text?=")) (bs "this is some text") = true.
Proof. vm_compute. reflexivity. Qed.
Example t56 : val_is (encoded_word D (bs "=?utf-8?q?Don=27t_forget!_Claim_your_=245_today_=F0=9F=92=B8?=")) (bs "Don't forget! Claim your $5 today " ++ [240; 159; 146; 184]%N) = true.
Proof. vm_compute. reflexivity. Qed.
Example t57 : val_is (encoded_word D (bs "=?UTF-8?Q?Chlo=C3=A9_Helloco?=")) (bs "Chlo" ++ [195; 169]%N ++ bs " Helloco") = true.
Proof. vm_compute. reflexivity. Qed.
Example t58 : val_is (encoded_word D (bs "=?ISO-8859-1?B?SWYgeW91IGNhbiByZWFkIHRoaXMgeW8=?=")) (bs "If you can read this yo") = true.
Proof. vm_compute. reflexivity. Qed.
Example t59 : val_is (encoded_word D (bs "=?ISO-8859-2?B?dSB1bmRlcnN0YW5kIHRoZSBleGFtcGxlLg==?=")) (bs "u understand the example.") = true.
Proof. vm_compute. reflexivity. Qed.

(* percent_encoding.rs:191-201 *)
Example t60 : bytes_is (decode_parameter D (bs "This%20is%20even%20more%20") (bs "us-ascii")) (bs "This is even more ") = true.
Proof. vm_compute. reflexivity. Qed.
Example t61 : bytes_is (decode_parameter D (bs "%2A%2A%2Afun%2A%2A%2A%20") (bs "us-ascii")) (bs "***fun*** ") = true.
Proof. vm_compute. reflexivity. Qed.

(* common.rs:157-246 *)
Example t62 : val_is (mime_unstructured D (bs "the quick brown fox jumps" ++ CRLF ++ bs " over =?UTF-8?Q?Chlo=C3=A9_Helloco?=   ")) (bs "the quick brown fox jumps over Chlo" ++ [195; 169]%N ++ bs " Helloco") = true.
Proof. vm_compute. reflexivity. Qed.
Example t63 : val_is (mime_unstructured D (bs "=?ISO-8859-1?Q?a?=")) (bs "a") = true.
Proof. vm_compute. reflexivity. Qed.
Example t64 : val_is (mime_unstructured D (bs "=?ISO-8859-1?Q?a?= b")) (bs "a b") = true.
Proof. vm_compute. reflexivity. Qed.
Example t65 : val_is (mime_unstructured D (bs "=?ISO-8859-1?Q?a?= =?ISO-8859-1?Q?b?=")) (bs "ab") = true.
Proof. vm_compute. reflexivity. Qed.
Example t66 : val_is (mime_unstructured D (bs "=?ISO-8859-1?Q?a?=  =?ISO-8859-1?Q?b?=")) (bs "ab") = true.
Proof. vm_compute. reflexivity. Qed.
Example t67 : val_is (mime_unstructured D (bs "=?ISO-8859-1?Q?a?=" ++ CRLF ++ bs "  =?ISO-8859-1?Q?b?=")) (bs "ab") = true.
Proof. vm_compute. reflexivity. Qed.
Example t68 : val_is (mime_unstructured D (bs "=?ISO-8859-1?Q?a_b?=")) (bs "a b") = true.
Proof. vm_compute. reflexivity. Qed.
Example t69 : val_is (mime_unstructured D (bs "=?ISO-8859-1?Q?a?= =?ISO-8859-2?Q?_b?=")) (bs "a b") = true.
Proof. vm_compute. reflexivity. Qed.
Example t70 : sat (phrase D (bs "Lou =?UTF-8?Q?Dorl=C3=A9ans?=")) (list_eqb [(bs "Lou"); (bs "Dorl" ++ [195; 169]%N ++ bs "ans")]) = true.
Proof. vm_compute. reflexivity. Qed.
Example t71 : sat (phrase D (bs "=?ISO-8859-1?Q?Andr=E9?= Pirard")) (list_eqb [(bs "Andr" ++ [195; 169]%N); (bs "Pirard")]) = true.
Proof. vm_compute. reflexivity. Qed.
Example t72 : sat (phrase D (bs " =?US-ASCII?Q?Keith_Moore?=")) (list_eqb [(bs "Keith Moore")]) = true.
Proof. vm_compute. reflexivity. Qed.
Example t73 : val_is (word (bs " this is a ""rust\ test"" ")) (bs "this") = true.
Proof. vm_compute. reflexivity. Qed.
Example t74 : sat (phrase env_default (bs " this is a ""rust\ test"" ")) (list_eqb [(bs "this"); (bs "is"); (bs "a"); (bs "rust test")]) = true.
Proof. vm_compute. reflexivity. Qed.
Example t75 : sat (phrase D (bs " this is a ""rust\ test"" ")) (list_eqb [(bs "this"); (bs "is"); (bs "a"); (bs "rust test")]) = true.
Proof. vm_compute. reflexivity. Qed.
Example t76 : val_is (unstructured (bs "the quick brown fox jumps" ++ CRLF ++ bs " over the lazy dog   ")) (bs "the quick brown fox jumps over the lazy dog") = true.
Proof. vm_compute. reflexivity. Qed.
Example t77 : val_is (atom (bs "this is a test")) (bs "this") = true.
Proof. vm_compute. reflexivity. Qed.
Example t78 : val_is (atom (bs "   averylongatom ")) (bs "averylongatom") = true.
Proof. vm_compute. reflexivity. Qed.
Example t79 : val_is (dot_atom_text D (bs "this.is.a.test")) (bs "this.is.a.test") = true.
Proof. vm_compute. reflexivity. Qed.
Example t80 : val_is (dot_atom env_default (bs "  this.is.a.test ")) (bs "this.is.a.test") = true.
Proof. vm_compute. reflexivity. Qed.

(* parsing/time.rs:199-374 *)
Example t81 : sat (day_name (bs "Mon ")) (fun x => match x with Monday => true | _ => false end) = true.
Proof. vm_compute. reflexivity. Qed.
Example t82 : sat (day_name (bs "moN ")) (fun x => match x with Monday => true | _ => false end) = true.
Proof. vm_compute. reflexivity. Qed.
Example t83 : sat (day_name (bs "thu")) (fun x => match x with Thursday => true | _ => false end) = true.
Proof. vm_compute. reflexivity. Qed.
Example t84 : sat (day_of_week (bs "   thu, ")) (fun x => match x with Thursday => true | _ => false end) = true.
Proof. vm_compute. reflexivity. Qed.
Example t85 : sat (day_of_week (bs "wed, ")) (fun x => match x with Wednesday => true | _ => false end) = true.
Proof. vm_compute. reflexivity. Qed.
Example t86 : sat (day_of_week (bs " Sun,")) (fun x => match x with Sunday => true | _ => false end) = true.
Proof. vm_compute. reflexivity. Qed.
Example t87 : sat (month (bs "Apr ")) (fun x => match x with April => true | _ => false end) = true.
Proof. vm_compute. reflexivity. Qed.
Example t88 : sat (month (bs "may ")) (fun x => match x with May => true | _ => false end) = true.
Proof. vm_compute. reflexivity. Qed.
Example t89 : sat (month (bs "deC ")) (fun x => match x with December => true | _ => false end) = true.
Proof. vm_compute. reflexivity. Qed.
Example t90 : N_is (day D (bs "31 ")) 31 = true.
Proof. vm_compute. reflexivity. Qed.
Example t91 : N_is (day D (bs "9 ")) 9 = true.
Proof. vm_compute. reflexivity. Qed.
Example t92 : N_is (day D (bs "05 ")) 5 = true.
Proof. vm_compute. reflexivity. Qed.
Example t93 : N_is (day D (bs "23 ")) 23 = true.
Proof. vm_compute. reflexivity. Qed.
Example t94 : N_is (year (bs " 2020 ")) 2020 = true.
Proof. vm_compute. reflexivity. Qed.
Example t95 : N_is (year (CRLF ++ bs " 1995 ")) 1995 = true.
Proof. vm_compute. reflexivity. Qed.
Example t96 : N_is (year (bs " 250032 ")) 250032 = true.
Proof. vm_compute. reflexivity. Qed.
Example t97 : date D (bs "1 nov 2020 ") = Ok ([], {| d_day := 1; d_month := November; d_year := 2020 |})%N.
Proof. vm_compute. reflexivity. Qed.
Example t98 : date D (bs "25 dec 2038 ") = Ok ([], {| d_day := 25; d_month := December; d_year := 2038 |})%N.
Proof. vm_compute. reflexivity. Qed.
Example t99 : date_time D (bs "Mon, 12 Apr 2023 10:25:03 +0000") = Ok ([], {| dt_day_name := Some Monday; dt_date := {| d_day := 12; d_month := April; d_year := 2023 |}; dt_time := {| tz_time := {| t_hour := 10; t_minute := 25; t_second := 3 |}; tz_zone := {| z_sign := true; z_hour_offset := 0; z_minute_offset := 0 |} |} |})%N.
Proof. vm_compute. reflexivity. Qed.
Example t100 : date_time D (bs "5 May 2003 18:59:03 +0000") = Ok ([], {| dt_day_name := None; dt_date := {| d_day := 5; d_month := May; d_year := 2003 |}; dt_time := {| tz_time := {| t_hour := 18; t_minute := 59; t_second := 3 |}; tz_zone := {| z_sign := true; z_hour_offset := 0; z_minute_offset := 0 |} |} |})%N.
Proof. vm_compute. reflexivity. Qed.
Example t101 : time_of_day D (bs "10:40:29") = Ok ([], {| t_hour := 10; t_minute := 40; t_second := 29 |})%N.
Proof. vm_compute. reflexivity. Qed.
Example t102 : time_of_day D (bs "10:40 ") = Ok ((bs " "), {| t_hour := 10; t_minute := 40; t_second := 0 |})%N.
Proof. vm_compute. reflexivity. Qed.
Example t103 : time_of_day D (bs "05:23 ") = Ok ((bs " "), {| t_hour := 5; t_minute := 23; t_second := 0 |})%N.
Proof. vm_compute. reflexivity. Qed.
Example t104 : zone D (bs " +1000 ") = Ok ((bs " "), {| z_sign := true; z_hour_offset := 10; z_minute_offset := 0 |})%N.
Proof. vm_compute. reflexivity. Qed.
Example t105 : zone D (bs " -0523 ") = Ok ((bs " "), {| z_sign := false; z_hour_offset := 5; z_minute_offset := 23 |})%N.
Proof. vm_compute. reflexivity. Qed.
Example t106 : time D (bs "06:44 +0100") = Ok ([], {| tz_time := {| t_hour := 6; t_minute := 44; t_second := 0 |}; tz_zone := {| z_sign := true; z_hour_offset := 1; z_minute_offset := 0 |} |})%N.
Proof. vm_compute. reflexivity. Qed.
Example t107 : time D (bs "23:57 +0000") = Ok ([], {| tz_time := {| t_hour := 23; t_minute := 57; t_second := 0 |}; tz_zone := {| z_sign := true; z_hour_offset := 0; z_minute_offset := 0 |} |})%N.
Proof. vm_compute. reflexivity. Qed.
Example t108 : time D (bs "08:23:02 -0500") = Ok ([], {| tz_time := {| t_hour := 8; t_minute := 23; t_second := 2 |}; tz_zone := {| z_sign := false; z_hour_offset := 5; z_minute_offset := 0 |} |})%N.
Proof. vm_compute. reflexivity. Qed.

(* parsing/address.rs:204-294 *)
Example t109 : val_is (local_part D (bs "mubelotix")) (bs "mubelotix") = true.
Proof. vm_compute. reflexivity. Qed.
Example t110 : val_is (local_part D (bs """mubelotix\ the\ admin""")) (bs "mubelotix the admin") = true.
Proof. vm_compute. reflexivity. Qed.
Example t111 : message_id D (bs "<idleft@idright>") = Ok ([], ((bs "idleft"), (bs "idright")))%N.
Proof. vm_compute. reflexivity. Qed.
Example t112 : message_id D (bs "<idleft@[idright]>") = Ok ([], ((bs "idleft"), (bs "idright")))%N.
Proof. vm_compute. reflexivity. Qed.
Example t113 : val_is (domain_literal (bs "[mubelotix.dev]")) (bs "mubelotix.dev") = true.
Proof. vm_compute. reflexivity. Qed.
Example t114 : val_is (domain_literal (bs "[mubelotix" ++ CRLF ++ bs " .dev]")) (bs "mubelotix.dev") = true.
Proof. vm_compute. reflexivity. Qed.
Example t115 : val_is (domain D (bs "[mubelotix" ++ CRLF ++ bs " .dev]")) (bs "mubelotix.dev") = true.
Proof. vm_compute. reflexivity. Qed.
Example t116 : val_is (domain D (bs "mubelotix.dev")) (bs "mubelotix.dev") = true.
Proof. vm_compute. reflexivity. Qed.
Example t117 : addr_spec D (bs "mubelotix@mubelotix.dev") = Ok ([], {| a_local_part := (bs "mubelotix"); a_domain := (bs "mubelotix.dev") |})%N.
Proof. vm_compute. reflexivity. Qed.
Example t118 : addr_spec D (bs """special\ person""@gmail.com") = Ok ([], {| a_local_part := (bs "special person"); a_domain := (bs "gmail.com") |})%N.
Proof. vm_compute. reflexivity. Qed.
Example t119 : name_addr D (bs "<mubelotix@gmail.com>") = Ok ([], {| m_name := None; m_address := {| a_local_part := (bs "mubelotix"); a_domain := (bs "gmail.com") |} |})%N.
Proof. vm_compute. reflexivity. Qed.
Example t120 : name_addr D (bs "Random Guy <someone@gmail.com>") = Ok ([], {| m_name := Some [(bs "Random"); (bs "Guy")]; m_address := {| a_local_part := (bs "someone"); a_domain := (bs "gmail.com") |} |})%N.
Proof. vm_compute. reflexivity. Qed.
Example t121 : mailbox D (bs "mubelotix@mubelotix.dev") = Ok ([], {| m_name := None; m_address := {| a_local_part := (bs "mubelotix"); a_domain := (bs "mubelotix.dev") |} |})%N.
Proof. vm_compute. reflexivity. Qed.
Example t122 : mailbox D (bs "Random Guy <someone@gmail.com>") = Ok ([], {| m_name := Some [(bs "Random"); (bs "Guy")]; m_address := {| a_local_part := (bs "someone"); a_domain := (bs "gmail.com") |} |})%N.
Proof. vm_compute. reflexivity. Qed.
Example t123 : mailbox_list D (bs "test@gmail.com,Michel<michel@gmail.com>,<postmaster@mubelotix.dev>") = Ok ([], [{| m_name := None; m_address := {| a_local_part := (bs "test"); a_domain := (bs "gmail.com") |} |}; {| m_name := Some [(bs "Michel")]; m_address := {| a_local_part := (bs "michel"); a_domain := (bs "gmail.com") |} |}; {| m_name := None; m_address := {| a_local_part := (bs "postmaster"); a_domain := (bs "mubelotix.dev") |} |}])%N.
Proof. vm_compute. reflexivity. Qed.
Example t124 : group D (bs "Developers: Mubelotix <mubelotix@mubelotix.dev>, Someone <guy@gmail.com>;") = Ok ([], ([(bs "Developers")], [{| m_name := Some [(bs "Mubelotix")]; m_address := {| a_local_part := (bs "mubelotix"); a_domain := (bs "mubelotix.dev") |} |}; {| m_name := Some [(bs "Someone")]; m_address := {| a_local_part := (bs "guy"); a_domain := (bs "gmail.com") |} |}]))%N.
Proof. vm_compute. reflexivity. Qed.
Example t125 : sat (address_list D (bs "mubelotix@gmail.com,guy@gmail.com,Developers:mubelotix@gmail.com,guy@gmail.com;")) (fun l => length l =? 3) = true.
Proof. vm_compute. reflexivity. Qed.

(* mime_fields.rs:446-618 *)
Example t126 : content_disposition D (bs "Content-Disposition: inline" ++ CRLF) = Ok ([], {| disposition_type := DInline; disp_filename := None; disp_creation_date := None; disp_modification_date := None; disp_read_date := None; disp_unstructured := [] |})%N.
Proof. vm_compute. reflexivity. Qed.
Example t127 : content_disposition D (bs "Content-Disposition: attachment; filename=genome.jpeg;" ++ CRLF ++ bs " modification-date=""Wed, 12 Feb 1997 16:29:51 -0500""" ++ CRLF) = Ok ([], {| disposition_type := DAttachment; disp_filename := Some (bs "genome.jpeg"); disp_creation_date := None; disp_modification_date := Some {| dt_day_name := (Some Wednesday); dt_date := {| d_day := 12; d_month := February; d_year := 1997 |}; dt_time := {| tz_time := {| t_hour := 16; t_minute := 29; t_second := 51 |}; tz_zone := {| z_sign := false; z_hour_offset := 5; z_minute_offset := 0 |} |} |}; disp_read_date := None; disp_unstructured := [] |})%N.
Proof. vm_compute. reflexivity. Qed.
Example t128 : content_disposition D (bs "Content-Disposition: attachment; param*0=foo;" ++ CRLF ++ bs " param*1=bar" ++ CRLF) = Ok ([], {| disposition_type := DAttachment; disp_filename := None; disp_creation_date := None; disp_modification_date := None; disp_read_date := None; disp_unstructured := [((bs "param"), (bs "foobar"))] |})%N.
Proof. vm_compute. reflexivity. Qed.
Example t129 : content_id D (bs "Content-ID: <123456@mubelotix.dev>" ++ CRLF) = Ok ([], ((bs "123456"), (bs "mubelotix.dev")))%N.
Proof. vm_compute. reflexivity. Qed.
Example t130 : content_id D (bs "cOntent-id: <qpfpsqfh@gmail.com>" ++ CRLF) = Ok ([], ((bs "qpfpsqfh"), (bs "gmail.com")))%N.
Proof. vm_compute. reflexivity. Qed.
Example t131 : val_is (content_description D (bs "Content-Description:a picture of the Space Shuttle Endeavor." ++ CRLF)) (bs "a picture of the Space Shuttle Endeavor.") = true.
Proof. vm_compute. reflexivity. Qed.
Example t132 : val_is (content_description D (bs "Content-DeScription:Ferris the crab" ++ CRLF)) (bs "Ferris the crab") = true.
Proof. vm_compute. reflexivity. Qed.
Example t133 : mime_version D (bs "MIME-Version: 1.0" ++ CRLF) = Ok ([], (1, 0))%N.
Proof. vm_compute. reflexivity. Qed.
Example t134 : mime_version D (bs "MIME-VersIon: 1.2" ++ CRLF) = Ok ([], (1, 2))%N.
Proof. vm_compute. reflexivity. Qed.
Example t135 : mime_version D (bs "MIME-VersIon: (produced by MetaSend Vx.x) 2.0" ++ CRLF) = Ok ([], (2, 0))%N.
Proof. vm_compute. reflexivity. Qed.
Example t136 : mime_version D (bs "MIME-VersIon: 214.25 (produced by MetaSend Vx.x)" ++ CRLF) = Ok ([], (214, 25))%N.
Proof. vm_compute. reflexivity. Qed.
Example t137 : content_type D (bs "Content-type: tExt/plain" ++ CRLF) = Ok ([], (CText, (bs "plain"), []))%N.
Proof. vm_compute. reflexivity. Qed.
Example t138 : content_type D (bs "Content-Type: message/external-body; access-type=URL;" ++ CRLF ++ bs " URL*0=""ftp://"";" ++ CRLF ++ bs " URL*1=""cs.utk.edu/pub/moore/bulk-mailer/bulk-mailer.tar""" ++ CRLF) = Ok ([], (CMessage, (bs "external-body"), [((bs "access-type"), (bs "URL")); ((bs "url"), (bs "ftp://cs.utk.edu/pub/moore/bulk-mailer/bulk-mailer.tar"))]))%N.
Proof. vm_compute. reflexivity. Qed.
Example t139 : content_type D (bs "Content-Type: application/x-stuff;" ++ CRLF ++ bs " title*0*=us-ascii'en'This%20is%20even%20more%20;" ++ CRLF ++ bs " title*1*=%2A%2A%2Afun%2A%2A%2A%20;" ++ CRLF ++ bs " title*2=""isn't it!""" ++ CRLF) = Ok ([], (CApplication, (bs "x-stuff"), [((bs "title"), (bs "This is even more ***fun*** isn't it!"))]))%N.
Proof. vm_compute. reflexivity. Qed.
Example t140 : content_type D (bs "Content-type: multIpart/unknown" ++ CRLF) = Ok ([], (CMultipart, (bs "unknown"), []))%N.
Proof. vm_compute. reflexivity. Qed.
Example t141 : content_type D (bs "Content-Type: text/plain; chaRSet=""iso-8859-1""" ++ CRLF) = Ok ([], (CText, (bs "plain"), [((bs "charset"), (bs "iso-8859-1"))]))%N.
Proof. vm_compute. reflexivity. Qed.
Example t142 : content_type D (bs "Content-type: text/plain; charset=us-ascii (Plain text)" ++ CRLF) = Ok ([], (CText, (bs "plain"), [((bs "charset"), (bs "us-ascii"))]))%N.
Proof. vm_compute. reflexivity. Qed.
Example t143 : content_type D (bs "Content-type: text/plain; charset=""us-ascii""" ++ CRLF) = Ok ([], (CText, (bs "plain"), [((bs "charset"), (bs "us-ascii"))]))%N.
Proof. vm_compute. reflexivity. Qed.
Example t144 : content_type D (bs "Content-Type: multipart/alternative; " ++ CRLF ++ [9]%N ++ bs "boundary=""_000_DB6P193MB0021E64E5870F10170A32CB8EB920DB6P193MB0021EURP_""" ++ CRLF) = Ok ([], (CMultipart, (bs "alternative"), [((bs "boundary"), (bs "_000_DB6P193MB0021E64E5870F10170A32CB8EB920DB6P193MB0021EURP_"))]))%N.
Proof. vm_compute. reflexivity. Qed.
Example t145 : content_transfer_encoding D (bs "Content-Transfer-Encoding: 7bit" ++ CRLF) = Ok ([], SevenBit)%N.
Proof. vm_compute. reflexivity. Qed.
Example t146 : content_transfer_encoding D (bs "Content-Transfer-Encoding: binary (invalid) " ++ CRLF) = Ok ([], Binary)%N.
Proof. vm_compute. reflexivity. Qed.
Example t147 : content_transfer_encoding D (bs "Content-Transfer-Encoding: (not readable) base64 " ++ CRLF) = Ok ([], Base64Enc)%N.
Proof. vm_compute. reflexivity. Qed.

(* fields.rs:614-849 *)
Example t148 : rest_is (fields D (bs "To: Mubelotix <mubelotix@gmail.com>" ++ CRLF ++ bs "FrOm: Mubelotix <mubelotix@gmail.com>" ++ CRLF)) [] = true.
Proof. vm_compute. reflexivity. Qed.
Example t149 : unknown D (bs "hidden-field:hidden message" ++ CRLF) = Ok ([], ((bs "hidden-field"), (bs "hidden message")))%N.
Proof. vm_compute. reflexivity. Qed.
Example t150 : rest_is (fields env_default (bs "To: Mubelotix <mubelotix@gmail.com>" ++ CRLF ++ bs "FrOm: Mubelotix <mubelotix@gmail.com>" ++ CRLF)) [] = true.
Proof. vm_compute. reflexivity. Qed.
Example t151 : unknown env_default (bs "hidden-field:hidden message" ++ CRLF) = Ok ([], ((bs "hidden-field"), (bs "hidden message")))%N.
Proof. vm_compute. reflexivity. Qed.
Example t152 : return_path D (bs "Return-Path:<>" ++ CRLF) = Ok ([], None)%N.
Proof. vm_compute. reflexivity. Qed.
Example t153 : return_path D (bs "Return-Path:<mubelotix@gmail.com>" ++ CRLF) = Ok ([], Some {| a_local_part := (bs "mubelotix"); a_domain := (bs "gmail.com") |})%N.
Proof. vm_compute. reflexivity. Qed.
Example t154 : sat (received D (bs "Received:test<mubelotix@gmail.com>;5 May 2003 18:59:03 +0000" ++ CRLF)) (fun x => match fst x with [RWord _; RAddr _] => true | _ => false end) = true.
Proof. vm_compute. reflexivity. Qed.
Example t155 : sat (received D (bs "Received:mubelotix.dev;5 May 2003 18:59:03 +0000" ++ CRLF)) (fun x => match fst x with [RDomain _] => true | _ => false end) = true.
Proof. vm_compute. reflexivity. Qed.
Example t156 : rest_is (trace D (bs "Return-Path:<>" ++ CRLF ++ bs "Received:akala miam miam;5 May 2003 18:59:03 +0000" ++ CRLF ++ bs "Received:mubelotix.dev;5 May 2003 18:59:03 +0000" ++ CRLF)) [] = true.
Proof. vm_compute. reflexivity. Qed.
Example t157 : sat (resent_field D (bs "Resent-Date:5 May 2003 18:59:03 +0000" ++ CRLF)) (fun x => match x with TDate _ => true | _ => false end) = true.
Proof. vm_compute. reflexivity. Qed.
Example t158 : sat (resent_field D (bs "Resent-FrOm: Mubelotix <mubelotix@gmail.com>" ++ CRLF)) (fun x => match x with TFrom (m :: _) => bytes_eqb (a_local_part (m_address m)) (bs "mubelotix") | _ => false end) = true.
Proof. vm_compute. reflexivity. Qed.
Example t159 : sat (resent_field D (bs "Resent-sender: Mubelotix <mubelotix@gmail.com>" ++ CRLF)) (fun x => match x with TSender m => bytes_eqb (a_domain (m_address m)) (bs "gmail.com") | _ => false end) = true.
Proof. vm_compute. reflexivity. Qed.
Example t160 : sat (resent_field D (bs "Resent-To: Mubelotix <mubelotix@gmail.com>" ++ CRLF)) (fun x => match x with TTo (_ :: _) => true | _ => false end) = true.
Proof. vm_compute. reflexivity. Qed.
Example t161 : sat (resent_field D (bs "Resent-Cc: Mubelotix <mubelotix@gmail.com>" ++ CRLF)) (fun x => match x with TCc (_ :: _) => true | _ => false end) = true.
Proof. vm_compute. reflexivity. Qed.
Example t162 : sat (resent_field D (bs "Resent-Bcc: Mubelotix <mubelotix@gmail.com>" ++ CRLF)) (fun x => match x with TBcc (_ :: _) => true | _ => false end) = true.
Proof. vm_compute. reflexivity. Qed.
Example t163 : is_ok (field_date D (bs "Date:5 May 2003 18:59:03 +0000" ++ CRLF)) = true.
Proof. vm_compute. reflexivity. Qed.
Example t164 : sat (field_from D (bs "FrOm: Mubelotix <mubelotix@gmail.com>" ++ CRLF)) (fun l => match l with m :: _ => bytes_eqb (a_local_part (m_address m)) (bs "mubelotix") | _ => false end) = true.
Proof. vm_compute. reflexivity. Qed.
Example t165 : sat (field_sender D (bs "sender: Mubelotix <mubelotix@gmail.com>" ++ CRLF)) (fun m => bytes_eqb (a_domain (m_address m)) (bs "gmail.com")) = true.
Proof. vm_compute. reflexivity. Qed.
Example t166 : sat (field_reply_to D (bs "Reply-to: Mubelotix <mubelotix@gmail.com>" ++ CRLF)) (fun l => length l =? 1) = true.
Proof. vm_compute. reflexivity. Qed.
Example t167 : sat (field_to D (bs "To: Mubelotix <mubelotix@gmail.com>" ++ CRLF)) (fun l => negb (length l =? 0)) = true.
Proof. vm_compute. reflexivity. Qed.
Example t168 : sat (field_cc D (bs "Cc: Mubelotix <mubelotix@gmail.com>" ++ CRLF)) (fun l => negb (length l =? 0)) = true.
Proof. vm_compute. reflexivity. Qed.
Example t169 : sat (field_bcc D (bs "Bcc: Mubelotix <mubelotix@gmail.com>" ++ CRLF)) (fun l => negb (length l =? 0)) = true.
Proof. vm_compute. reflexivity. Qed.
Example t170 : sat (field_bcc D (bs "Bcc: " ++ CRLF ++ bs " " ++ CRLF)) (fun l => length l =? 0) = true.
Proof. vm_compute. reflexivity. Qed.
Example t171 : field_message_id D (bs "Message-ID:<556100154@gmail.com>" ++ CRLF) = Ok ([], ((bs "556100154"), (bs "gmail.com")))%N.
Proof. vm_compute. reflexivity. Qed.
Example t172 : sat (field_references D (bs "References:<qzdzdq@qdz.com><dzdzjd@zdzdj.dz>" ++ CRLF)) (fun l => length l =? 2) = true.
Proof. vm_compute. reflexivity. Qed.
Example t173 : sat (field_in_reply_to D (bs "In-Reply-To:<eefes@qzd.fr><52@s.dz><adzd@zd.d>" ++ CRLF)) (fun l => length l =? 3) = true.
Proof. vm_compute. reflexivity. Qed.
Example t174 : val_is (field_subject D (bs "Subject:French school is boring" ++ CRLF)) (bs "French school is boring") = true.
Proof. vm_compute. reflexivity. Qed.
Example t175 : val_is (field_subject D (bs "Subject:Folding" ++ CRLF ++ bs " is slow" ++ CRLF)) (bs "Folding is slow") = true.
Proof. vm_compute. reflexivity. Qed.
Example t176 : val_is (field_comments D (bs "Comments:Rust is great" ++ CRLF)) (bs "Rust is great") = true.
Proof. vm_compute. reflexivity. Qed.
Example t177 : sat (field_keywords D (bs "Keywords:rust parser fast zero copy,email rfc5322" ++ CRLF)) (fun l => length l =? 2) = true.
Proof. vm_compute. reflexivity. Qed.
Example t178 : val_is (field_subject env_default (bs "Subject:French school is boring" ++ CRLF)) (bs "French school is boring") = true.
Proof. vm_compute. reflexivity. Qed.
Example t179 : val_is (field_subject env_default (bs "Subject:Folding" ++ CRLF ++ bs " is slow" ++ CRLF)) (bs "Folding is slow") = true.
Proof. vm_compute. reflexivity. Qed.
Example t180 : val_is (field_comments env_default (bs "Comments:Rust is great" ++ CRLF)) (bs "Rust is great") = true.
Proof. vm_compute. reflexivity. Qed.
Example t181 : sat (field_keywords env_default (bs "Keywords:rust parser fast zero copy,email rfc5322" ++ CRLF)) (fun l => length l =? 2) = true.
Proof. vm_compute. reflexivity. Qed.
Example t182 : val_is (field_subject D (bs "Subject: =?UTF-8?B?8J+OiEJpcnRoZGF5IEdpdmVhd2F58J+OiA==?= Win free stickers" ++ CRLF ++ bs " from daily.dev =?UTF-8?B?8J+MiA==?=" ++ CRLF)) (bs " " ++ [240; 159; 142; 136]%N ++ bs "Birthday Giveaway" ++ [240; 159; 142; 136]%N ++ bs " Win free stickers from daily.dev " ++ [240; 159; 140; 136]%N) = true.
Proof. vm_compute. reflexivity. Qed.
Example t183 : val_is (field_comments D (bs "Comments: =?ISO-8859-1?B?SWYgeW91IGNhbiByZWFkIHRoaXMgeW8=?=" ++ CRLF ++ bs " =?ISO-8859-2?B?dSB1bmRlcnN0YW5kIHRoZSBleGFtcGxlLg==?=" ++ CRLF)) (bs " If you can read this you understand the example.") = true.
Proof. vm_compute. reflexivity. Qed.
Example t184 : sat (field_from D (bs "From: =?US-ASCII?Q?Keith_Moore?= <moore@cs.utk.edu>" ++ CRLF)) (fun l => match l with m :: _ => match m_name m with Some (x :: _) => bytes_eqb x (bs "Keith Moore") | _ => false end | _ => false end) = true.
Proof. vm_compute. reflexivity. Qed.
Example t185 : match unknown D (bs "X-SG-EID:" ++ CRLF ++ bs " =?us-ascii?Q?t3vk5cTFE=2FYEGeQ8h3SwrnzIAGc=2F+ADymlys=2FfRFW4Zjpt=2F3MuaO9JNHS2enYQ?=" ++ CRLF ++ bs " =?us-ascii?Q?Jsv0=2FpYrPem+YssHetKlrE5nJnOfr=2FYdJOyJFf8?=" ++ CRLF) with Ok (_, (_, v)) => bytes_eqb v (bs " t3vk5cTFE/YEGeQ8h3SwrnzIAGc/+ADymlys/fRFW4Zjpt/3MuaO9JNHS2enYQJsv0/pYrPem+YssHetKlrE5nJnOfr/YdJOyJFf8") | _ => false end = true.
Proof. vm_compute. reflexivity. Qed.

(* message.rs:139-159 *)
Example t186 : val_is (line (bs "This is a line" ++ CRLF ++ bs "And this is a second line")) (bs "This is a line") = true.
Proof. vm_compute. reflexivity. Qed.
Example t187 : match body_lines (CRLF ++ bs "This is a line" ++ CRLF ++ bs "And this is a second line") with Ok l => length l =? 2 | _ => false end = true.
Proof. vm_compute. reflexivity. Qed.
Example t188 : match body (CRLF ++ bs "This is a line" ++ CRLF ++ bs "And this is a second line") with Ok (Some b) => bytes_eqb b (bs "This is a line" ++ CRLF ++ bs "And this is a second line") | _ => false end = true.
Proof. vm_compute. reflexivity. Qed.

(* multipart.rs:101-163 *)
Example t189 : match parse_multipart D (bs "This is the preamble.  It is to be ignored, though it" ++ CRLF ++ bs "is a handy place for composition agents to include an" ++ CRLF ++ bs "explanatory note to non-MIME conformant readers." ++ CRLF ++ CRLF ++ bs "--simple boundary" ++ CRLF ++ CRLF ++ bs "This is implicitly typed plain US-ASCII text." ++ CRLF ++ bs "It does NOT end with a linebreak." ++ CRLF ++ bs "--simple boundary" ++ CRLF ++ bs "Content-type: text/plain; charset=us-ascii" ++ CRLF ++ CRLF ++ bs "This is explicitly typed plain US-ASCII text." ++ CRLF ++ bs "It DOES end with a linebreak." ++ CRLF ++ CRLF ++ bs "--simple boundary--" ++ CRLF ++ CRLF ++ bs "This is the epilogue.  It is also to be ignored.") [((bs "boundary"), (bs "simple boundary"))] with Ok [a; b] => bytes_eqb (e_value a) (bs "This is implicitly typed plain US-ASCII text." ++ CRLF ++ bs "It does NOT end with a linebreak.") && bytes_eqb (e_value b) (bs "This is explicitly typed plain US-ASCII text." ++ CRLF ++ bs "It DOES end with a linebreak." ++ CRLF) | _ => false end = true.
Proof. vm_compute. reflexivity. Qed.
Example t190 : val_is (before_boundary (bs "boundary") (bs "--boundary" ++ CRLF ++ bs "I am making a not here: huge success")) [] = true.
Proof. vm_compute. reflexivity. Qed.
Example t191 : val_is (before_boundary (bs "boundary") (bs "aeiouy" ++ CRLF ++ bs "--boundary" ++ CRLF)) (bs "aeiouy") = true.
Proof. vm_compute. reflexivity. Qed.
Example t192 : val_is (before_boundary (bs "boundary") (bs "This was a triumph" ++ CRLF ++ bs "--boundary" ++ CRLF ++ bs "I am making a not here: huge success")) (bs "This was a triumph") = true.
Proof. vm_compute. reflexivity. Qed.
Example t193 : val_is (before_boundary (bs "boundary") (CRLF ++ bs "--boundary" ++ CRLF ++ bs "I am making a not here: huge success")) [] = true.
Proof. vm_compute. reflexivity. Qed.
Example t194 : rest_is (before_boundary (bs "boundary") (bs "This was a triumph" ++ CRLF ++ bs "--boundary" ++ CRLF ++ bs "I am making a not here: huge success")) (bs "I am making a not here: huge success") = true.
Proof. vm_compute. reflexivity. Qed.
Example t195 : rest_is (before_closing_boundary (bs "boundary") (bs "This was a triumph" ++ CRLF ++ bs "--boundary--" ++ CRLF ++ bs "I am making a not here: huge success")) (bs "I am making a not here: huge success") = true.
Proof. vm_compute. reflexivity. Qed.

(* entity.rs:260-324 *)
Example t196 : raw_entity D (CRLF ++ bs "Text") = Ok ({| e_mime_type := CText; e_subtype := (bs "plain"); e_description := None; e_id := None; e_parameters := [((bs "charset"), (bs "us-ascii"))]; e_disposition := None; e_value := (bs "Text"); e_additional_headers := [] |})%N.
Proof. vm_compute. reflexivity. Qed.
Example t197 : raw_entity D (bs "Content-type: text/html; charset=utf-8" ++ CRLF ++ bs "Unknown: Test" ++ CRLF ++ CRLF ++ bs "<p>Text</p>") = Ok ({| e_mime_type := CText; e_subtype := (bs "html"); e_description := None; e_id := None; e_parameters := [((bs "charset"), (bs "utf-8"))]; e_disposition := None; e_value := (bs "<p>Text</p>"); e_additional_headers := [((bs "Unknown"), (bs " Test"))] |})%N.
Proof. vm_compute. reflexivity. Qed.
Example t198 : match raw_entity D (bs "Content-type: text/html; charset=utf-8" ++ CRLF ++ bs "Content-Transfer-Encoding: quoted-printable" ++ CRLF ++ CRLF ++ bs "<p>Test=C3=A9</p>") with Ok r => match entity D r with Ok (EText s v) => bytes_eqb s (bs "html") && bytes_eqb v (bs "<p>Test" ++ [195; 169]%N ++ bs "</p>") | _ => false end | _ => false end = true.
Proof. vm_compute. reflexivity. Qed.

(* email.rs:11-26 (doc test), 414-457 *)
Example t199 : match parse D (bs "From: Mubelotix <mubelotix@mubelotix.dev>" ++ CRLF ++ bs "Subject:Example Email" ++ CRLF ++ bs "To: Someone <example@example.com>" ++ CRLF ++ bs "Message-id: <6546518945@mubelotix.dev>" ++ CRLF ++ bs "Date: 5 May 2003 18:58:34 +0000" ++ CRLF ++ CRLF ++ bs "Hey!" ++ CRLF) with Ok e => match subject e, sender e with Some s, Some m => bytes_eqb s (bs "Example Email") && bytes_eqb (a_local_part (m_address m)) (bs "mubelotix") && bytes_eqb (a_domain (m_address m)) (bs "mubelotix.dev") && match m_name m with Some l => list_eqb l [(bs "Mubelotix")] | None => false end | _, _ => false end | _ => false end = true.
Proof. vm_compute. reflexivity. Qed.
Example t200 : match parse env_default (bs "From: Mubelotix <mubelotix@mubelotix.dev>" ++ CRLF ++ bs "Subject:Example Email" ++ CRLF ++ bs "To: Someone <example@example.com>" ++ CRLF ++ bs "Message-id: <6546518945@mubelotix.dev>" ++ CRLF ++ bs "Date: 5 May 2003 18:58:34 +0000" ++ CRLF ++ CRLF ++ bs "Hey!" ++ CRLF) with Ok e => match subject e, sender e with Some s, Some m => bytes_eqb s (bs "Example Email") && bytes_eqb (a_local_part (m_address m)) (bs "mubelotix") && bytes_eqb (a_domain (m_address m)) (bs "mubelotix.dev") && match m_name m with Some l => list_eqb l [(bs "Mubelotix")] | None => false end | _, _ => false end | _ => false end = true.
Proof. vm_compute. reflexivity. Qed.
Example t201 : match parse env_mime (bs "From: Mubelotix <mubelotix@mubelotix.dev>" ++ CRLF ++ bs "Subject:Example Email" ++ CRLF ++ bs "To: Someone <example@example.com>" ++ CRLF ++ bs "Message-id: <6546518945@mubelotix.dev>" ++ CRLF ++ bs "Date: 5 May 2003 18:58:34 +0000" ++ CRLF ++ CRLF ++ bs "Hey!" ++ CRLF) with Ok e => match subject e, sender e with Some s, Some m => bytes_eqb s (bs "Example Email") && bytes_eqb (a_local_part (m_address m)) (bs "mubelotix") && bytes_eqb (a_domain (m_address m)) (bs "mubelotix.dev") && match m_name m with Some l => list_eqb l [(bs "Mubelotix")] | None => false end | _, _ => false end | _ => false end = true.
Proof. vm_compute. reflexivity. Qed.
Example t202 : is_err (parse D (bs "From: Mubelotix <mubelotix@mubelotix.dev>" ++ CRLF ++ CRLF ++ bs "Hey!" ++ CRLF)) = true.
Proof. vm_compute. reflexivity. Qed.
Example t203 : is_err (parse D (bs "From: Mubelotix <mubelotix@mubelotix.dev>" ++ CRLF ++ bs "Date: 5 May 2003 18:58:34 +0000" ++ CRLF ++ bs "Date: 6 May 2003 18:58:34 +0000" ++ CRLF ++ CRLF ++ bs "Hey!" ++ CRLF)) = true.
Proof. vm_compute. reflexivity. Qed.
Example t204 : is_err (parse D (bs "Date: 5 May 2003 18:58:34 +0000" ++ CRLF ++ CRLF ++ bs "Hey!" ++ CRLF)) = true.
Proof. vm_compute. reflexivity. Qed.
Example t205 : is_err (parse D (bs "From: Mubelotix <mubelotix@mubelotix.dev>" ++ CRLF ++ bs "From: Someone <jack@gmail.com>" ++ CRLF ++ bs "Date: 5 May 2003 18:58:34 +0000" ++ CRLF ++ CRLF ++ bs "Hey!" ++ CRLF)) = true.
Proof. vm_compute. reflexivity. Qed.
Example t206 : is_err (parse env_default (bs "From: Mubelotix <mubelotix@mubelotix.dev>" ++ CRLF ++ CRLF ++ bs "Hey!" ++ CRLF)) = true.
Proof. vm_compute. reflexivity. Qed.
Example t207 : is_err (parse env_default (bs "From: Mubelotix <mubelotix@mubelotix.dev>" ++ CRLF ++ bs "Date: 5 May 2003 18:58:34 +0000" ++ CRLF ++ bs "Date: 6 May 2003 18:58:34 +0000" ++ CRLF ++ CRLF ++ bs "Hey!" ++ CRLF)) = true.
Proof. vm_compute. reflexivity. Qed.
Example t208 : is_err (parse env_default (bs "Date: 5 May 2003 18:58:34 +0000" ++ CRLF ++ CRLF ++ bs "Hey!" ++ CRLF)) = true.
Proof. vm_compute. reflexivity. Qed.
Example t209 : is_err (parse env_default (bs "From: Mubelotix <mubelotix@mubelotix.dev>" ++ CRLF ++ bs "From: Someone <jack@gmail.com>" ++ CRLF ++ bs "Date: 5 May 2003 18:58:34 +0000" ++ CRLF ++ CRLF ++ bs "Hey!" ++ CRLF)) = true.
Proof. vm_compute. reflexivity. Qed.

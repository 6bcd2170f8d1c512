(* C59: what the codecs and the search for boundaries cost. The t_ functions of TimedCodec.v are those of the code, counting elementary operations; they return the same results. *)
From Verif Require Import Base Utf8 Combinators Base64 QuotedPrintable Charset Percent MimeFields Entity Envs Timed TimedCodec TimedCodecFacts TimedCodecLow TimedSearch.

(* base64 is linear in both directions *)
Theorem C59_base64 : forall E d,
  (fst (t_decode_base64 E d) = decode_base64 E d /\ snd (t_decode_base64 E d) <= 8 * S (length d)) /\
  (fst (t_encode_base64 E d) = encode_base64 E d /\ snd (t_encode_base64 E d) <= 7 * S (length d)).
Proof. exact (fun E d => conj (decode_base64_cost E d) (encode_base64_cost E d)). Qed.
Print Assumptions C59_base64.
(* quoted-printable, in a body, in an encoded word, and written: at most the square of the length *)
Theorem C59_quoted_printable : forall E d,
  (fst (t_decode_qp E d) = decode_qp E d /\ snd (t_decode_qp E d) <= 12 * (S (length d) * S (length d))) /\
  (fst (t_decode_header_qp E d) = decode_header_qp E d /\ snd (t_decode_header_qp E d) <= 12 * (S (length d) * S (length d))) /\
  (fst (t_encode_qp E d) = encode_qp E d /\ snd (t_encode_qp E d) <= 57 * (S (length d) * S (length d))).
Proof. exact (fun E d => conj (decode_qp_cost E d) (conj (decode_header_qp_cost E d) (encode_qp_cost E d))). Qed.
Print Assumptions C59_quoted_printable.
(* and no multiple of the length is enough: each escape moves all the bytes behind it *)
Theorem C59_decode_qp_linear_refuted : forall E K, exists d r, decode_qp E d = Ok r /\ K * S (length d) < snd (t_decode_qp E d).
Proof. exact decode_qp_beyond. Qed.
Print Assumptions C59_decode_qp_linear_refuted.
Theorem C59_decode_header_qp_linear_refuted : forall E K, exists d r, decode_header_qp E d = Ok r /\ K * S (length d) < snd (t_decode_header_qp E d).
Proof. exact decode_header_qp_beyond. Qed.
Print Assumptions C59_decode_header_qp_linear_refuted.
Theorem C59_encode_qp_linear_refuted : forall E K, exists d, wf_bytes d /\ K * S (length d) < snd (t_encode_qp E d).
Proof. exact encode_qp_beyond. Qed.
Print Assumptions C59_encode_qp_linear_refuted.
(* percent-encoded parameters: the same *)
Theorem C59_percent : forall E d charset, fst (t_decode_parameter E d charset) = decode_parameter E d charset /\ snd (t_decode_parameter E d charset) <= 4 * (S (length d) * S (length d)).
Proof. exact decode_parameter_cost. Qed.
Print Assumptions C59_percent.
Theorem C59_percent_linear_refuted : forall E K, exists d r, decode_parameter E d (bs "us-ascii") = Ok r /\ K * S (length d) < snd (t_decode_parameter E d (bs "us-ascii")).
Proof. exact decode_parameter_beyond. Qed.
Print Assumptions C59_percent_linear_refuted.
(* the value of an entity: linear unless it is quoted-printable *)
Theorem C59_value : forall E v enc, fst (t_decode_value E v enc) = decode_value E v enc /\ snd (t_decode_value E v enc) <= 13 * (S (length v) * S (length v)) /\ (enc <> QuotedPrintableEnc -> snd (t_decode_value E v enc) <= 9 * S (length v)).
Proof. exact decode_value_cost. Qed.
Print Assumptions C59_value.
(* the parts of a multipart: all the searches together read the text a bounded number of times if the boundary contains no CR *)
Theorem C59_parts_same : forall E i ps, parse_multipart E i ps = bind (ok_or (map_get ps (bs "boundary")) (Unknown "Missing boundary parameter")) (fun boundary => bind (fst (t_split_parts boundary i)) (raw_entities E)).
Proof. exact split_parts_same. Qed.
Print Assumptions C59_parts_same.
Theorem C59_parts_linear : forall boundary i, ~ In 13%N boundary -> snd (t_split_parts boundary i) <= 37 * S (length i).
Proof. exact split_no_cr. Qed.
Print Assumptions C59_parts_linear.
(* and in any case at most once for each byte of the boundary *)
Theorem C59_parts : forall boundary i, snd (t_split_parts boundary i) <= 35 * (S (length boundary) * S (length i)).
Proof. exact split_any. Qed.
Print Assumptions C59_parts.
(* a boundary with CRs, which a percent-encoded parameter can have, is compared again at every repetition *)
Theorem C59_parts_linear_refuted : forall K, exists boundary i, length boundary <= length i /\ K * S (length i) < snd (t_split_parts boundary i).
Proof. exact split_beyond. Qed.
Print Assumptions C59_parts_linear_refuted.

Definition many_parts (n : nat) : bytes := bs "--b" ++ CRLF ++ times n (bs "text" ++ CRLF ++ bs "--x" ++ CRLF ++ bs "--b" ++ CRLF) ++ CRLF ++ bs "--b--" ++ CRLF.
Example C59_example :
  (* base64: linear; quoted-printable and percent encoding: twice the text, four times the work *)
  map (fun n => snd (t_decode_base64 env_mime (times n (bs "QUJD")))) [10; 20; 40] = [71; 141; 281] /\
  map (fun n => snd (t_decode_qp env_mime (times n (bs "=41")))) [10; 20; 40] = [311; 1221; 4841] /\
  map (fun n => snd (t_encode_qp env_mime (repeat 195%N n))) [10; 20; 40] = [261; 921; 3495] /\
  map (fun n => snd (t_decode_parameter env_mime (times n (bs "%41")) (bs "us-ascii"))) [10; 20; 40] = [162; 522; 1842] /\
  (* the searches *)
  ~ In 13%N (bs "b") /\ fst (t_split_parts (bs "b") (many_parts 2)) = Ok [bs "text" ++ CRLF ++ bs "--x"; bs "text" ++ CRLF ++ bs "--x"; []] /\
  map (fun n => (length (many_parts n), snd (t_split_parts (bs "b") (many_parts n)))) [10; 20; 40] = [(174, 435); (334, 815); (654, 1575)] /\
  map (fun n => (length (times (n + n) turn_text), snd (t_split_parts (bad_boundary n) (times (n + n) turn_text)))) [5; 10] = [(40, 543); (80, 1683)] /\
  (* such a boundary in a header *)
  fst (t_decode_parameter env_mime (bs "%0D%0A--%0D%0A--x") (bs "us-ascii")) = Ok (bad_boundary 2) /\
  content_type env_mime (bs "Content-Type: multipart/mixed; boundary*0*=us-ascii''%0D%0A--%0D%0A--x" ++ CRLF) = Ok ([], (CMultipart, bs "mixed", [(bs "boundary", bad_boundary 2)])).
Proof.
  do 4 (split; [vm_compute; reflexivity|]). split; [intros [H|[]]; discriminate|]. do 4 (split; [vm_compute; reflexivity|]). vm_compute. reflexivity.
Qed.

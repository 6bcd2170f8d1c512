(* Properties C05-C11, C13: the transfer codecs. *)
From Verif Require Import Base Utf8 Base64 QuotedPrintable Percent Envs CodecSpec Base64Proofs QPProofs PercentProofs.
Local Open Scope N_scope.

(* ---- C05: base64 round trip ---- *)
Theorem C05_base64_round_trip : forall E data, wf_bytes data ->
  exists text, encode_base64 E data = Ok text /\ decode_base64 E text = Ok data.
Proof. exact base64_round_trip. Qed.
Print Assumptions C05_base64_round_trip.
Example C05_example : encode_base64 env_all_debug [0; 255; 16; 131] = Ok (bs "AP8Qgw==")
  /\ decode_base64 env_all_debug (bs "AP8Qgw==") = Ok [0; 255; 16; 131].
Proof. split; reflexivity. Qed.

(* ---- C06: foreign bytes are ignored, wherever they are ---- *)
Theorem C06_base64_ignores_foreign_bytes : forall E a noise b v,
  Forall (fun c => ~ In c b64_alphabet /\ c <> 61) noise ->
  (decode_base64 E (a ++ noise ++ b) = Ok v <-> decode_base64 E (a ++ b) = Ok v).
Proof. exact base64_foreign. Qed.
Print Assumptions C06_base64_ignores_foreign_bytes.
Example C06_example : decode_base64 env_mime (bs "aGV" ++ [13; 10; 200; 45] ++ bs "5") = Ok (bs "hey")
  /\ decode_base64 env_mime (bs "aGV5") = Ok (bs "hey")
  /\ Forall (fun c => ~ In c b64_alphabet /\ c <> 61) [13; 10; 200; 45].
Proof.
  split; [reflexivity|]. split; [reflexivity|].
  repeat (apply Forall_cons; [split; [vm_compute; intuition discriminate|discriminate]|]). apply Forall_nil.
Qed.

(* ---- C07: the decoder is the RFC 4648 decoder, errors included ---- *)
Theorem C07_base64_decoding : forall E data,
  match b64_decoding data with
  | Some v => decode_base64 E data = Ok v
  | None => exists w, decode_base64 E data = Err (Unknown w)
  end.
Proof. exact decode_base64_spec. Qed.
Print Assumptions C07_base64_decoding.
Example C07_example : b64_decoding (bs "aGV5IQ==") = Some (bs "hey!") /\ b64_decoding (bs "aGV5IQ") = None
  /\ b64_decoding (bs "aGV5I=Q=") = None.
Proof. repeat split; reflexivity. Qed.

(* ---- C08: shape of the encoder's output ---- *)
Theorem C08_base64_shape : forall E data, wf_bytes data -> exists text, encode_base64 E data = Ok text
  /\ (forall c, In c text -> In c b64_alphabet \/ c = 61 \/ c = 13 \/ c = 10)
  /\ Forall (fun line => (length line <= 76)%nat) (lines_of text)
  /\ concat (lines_of text) = b64_encoding data
  /\ length (concat (lines_of text)) = (4 * ((length data + 2) / 3))%nat.
Proof. exact base64_shape. Qed.
Print Assumptions C08_base64_shape.
Example C08_example : exists a b, encode_base64 env_mime (repeat 0 55) = Ok (a ++ CRLF ++ b)
  /\ lines_of (a ++ CRLF ++ b) = [a; b] /\ length a = 72%nat /\ b = bs "AA==".
Proof. exists (repeat 65 72), (bs "AA=="). repeat split; reflexivity. Qed.

(* ---- C09: quoted-printable round trip ---- *)
Theorem C09_quoted_printable_round_trip : forall E data, wf_bytes data ->
  exists text, encode_qp E data = Ok text /\ decode_qp E text = Ok data.
Proof. exact qp_round_trip. Qed.
Print Assumptions C09_quoted_printable_round_trip.
Example C09_example : encode_qp env_all_debug (bs "a=b " ++ CRLF ++ [13; 200] ++ bs " ") = Ok (bs "a=3Db=20" ++ CRLF ++ bs "=0D=C8=20")
  /\ decode_qp env_all_debug (bs "a=3Db=20" ++ CRLF ++ bs "=0D=C8=20") = Ok (bs "a=b " ++ CRLF ++ [13; 200] ++ bs " ").
Proof. split; reflexivity. Qed.

(* ---- C10: shape of the encoder's output ---- *)
Theorem C10_quoted_printable_shape : forall E data, wf_bytes data ->
  exists text, encode_qp E data = Ok text /\ Forall good_line (lines_of text).
Proof. exact qp_shape. Qed.
Print Assumptions C10_quoted_printable_shape.
Example C10_example : encode_qp env_mime (repeat 32 73 ++ [0]) = Ok (repeat 32 72 ++ [61] ++ CRLF ++ bs " =00")
  /\ lines_of (repeat 32 72 ++ [61] ++ CRLF ++ bs " =00") = [repeat 32 72 ++ [61]; bs " =00"].
Proof. split; reflexivity. Qed.

(* ---- C11: the decoders are the one-pass decoders ---- *)
Theorem C11_quoted_printable_decoding : forall E data, decode_qp E data = Ok (qp_decoding data).
Proof. exact decode_qp_spec. Qed.
Print Assumptions C11_quoted_printable_decoding.
Theorem C11_q_decoding : forall E data, decode_header_qp E data = Ok (q_decoding data).
Proof. exact decode_header_qp_spec. Qed.
Print Assumptions C11_q_decoding.
Example C11_example : qp_decoding (bs "a=3Db=" ++ CRLF ++ bs "c_=4g=") = bs "a=bc_" ++ REPLACEMENT ++ bs "="
  /\ q_decoding (bs "a=3Db=" ++ CRLF ++ bs "c_=4g=") = bs "a=bc " ++ REPLACEMENT ++ bs "=".
Proof. split; reflexivity. Qed.

(* ---- C13: percent decoding ---- *)
Theorem C13_percent_decoding : forall E text name, In name charset_names -> percents_ok text ->
  forall v, decode_parameter E text name = Ok v <-> charset_decodes (textcode E) name (percent_decoding text) v.
Proof. exact percent_parameter. Qed.
Print Assumptions C13_percent_decoding.
Theorem C13_percent_round_trip : forall E v text, utf8_valid v = true -> percent_encodes v text ->
  decode_parameter E text (bs "utf-8") = Ok v.
Proof. exact percent_round_trip. Qed.
Print Assumptions C13_percent_round_trip.
(* without the proviso: "%%34%31" is decoded twice *)
Theorem C13_percent_decoded_once_refuted : exists text v, forall E,
  decode_parameter E text (bs "utf-8") = Ok v /\ v <> percent_decoding text.
Proof. exists (bs "%%34%31"), (bs "A"). intros E. split; [reflexivity|]. vm_compute. discriminate. Qed.
Print Assumptions C13_percent_decoded_once_refuted.
Example C13_example : percent_encodes (bs "100% sure") (bs "100%25%20sure")
  /\ decode_parameter env_mime (bs "100%25%20sure") (bs "utf-8") = Ok (bs "100% sure").
Proof.
  split; [|reflexivity]. cbn.
  repeat first [eapply pe_escape; [reflexivity|reflexivity|reflexivity|] | apply pe_literal; [discriminate|] | apply pe_nil].
Qed.

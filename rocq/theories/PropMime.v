(* Properties C14, C15, C35, C36, C37, C38: MIME headers. *)
From Coq Require Import Lia Permutation.
From Verif Require Import Base Utf8 Combinators EncodedWord Common Time Address Percent MimeFields Fields Entity Email Envs EnvOk Rfc5322 CodecSpec Rfc2047 RfcFields
  CompleteFields Writers EncodedSpec EncodedFacts ParamSpec OrderFacts ParamWrite VersionFacts MimeRefute.
Ltac compute_all := lazymatch goal with |- _ /\ _ => split; compute_all | _ => vm_compute; reflexivity end.

(* ---- C14: encoded words ---- *)
Theorem C14_encoded_word_back : forall E c v i, written_encoded c v -> encoded_word E (c ++ i) = Ok (i, v).
Proof. exact encoded_read. Qed.
Print Assumptions C14_encoded_word_back.
Theorem C14_every_text_written : forall v, v <> [] -> utf8_valid v = true -> written_encoded (bs "=?utf-8?B?" ++ b64_encoding v ++ bs "?=") v.
Proof. exact b_encoded. Qed.
Print Assumptions C14_every_text_written.
Theorem C14_encoded_name_back : forall E n c v c' a i, f_mime E = true -> same_nocase n (bs "Sender") -> written_encoded c v -> written_address c' a -> no_blank i ->
  field_sender E (n ++ bs ": " ++ (c ++ bs " <" ++ c' ++ bs ">") ++ CRLF ++ i) = Ok (i, {| m_name := Some [v]; m_address := a |}).
Proof. exact encoded_name_read. Qed.
Print Assumptions C14_encoded_name_back.
Definition cafe : bytes := (bs "caf" ++ [195; 169; 32; 63])%N.
Lemma cafe_q : written_encoded (bs "=?UTF-8*fr?q?caf=c3=A9_=3F?=") cafe.
Proof.
  apply (written_encoded_intro (bs "UTF-8") (bs "*fr") (bs "q") (bs "caf=c3=A9_=3F") cafe); try (vm_compute; reflexivity); try discriminate.
  - apply (ew_language_some (bs "fr")). split; [discriminate|]. apply Forall_forall. intros x Hx. vm_compute in Hx. unfold ew_token_char. cbn. lia.
  - apply written_q; [reflexivity|]. change (q_written [99; 97; 102; 61; 99; 51; 61; 65; 57; 95; 61; 51; 70] [99; 97; 102; 195; 169; 32; 63])%N.
    do 3 (apply q_char; [lia|lia|lia|lia|]). apply (q_byte 99 51 12 3); [reflexivity|reflexivity|]. apply (q_byte 65 57 10 9); [reflexivity|reflexivity|].
    apply q_space. apply (q_byte 51 70 3 15); [reflexivity|reflexivity|]. constructor.
Qed.
Example C14_example : written_encoded (bs "=?UTF-8*fr?q?caf=c3=A9_=3F?=") cafe
  /\ encoded_word env_mime (bs "=?UTF-8*fr?q?caf=c3=A9_=3F?=" ++ bs "!") = Ok (bs "!", cafe)
  /\ encoded_word env_mime (bs "=?utf-8?B?" ++ b64_encoding cafe ++ bs "?=" ++ bs "!") = Ok (bs "!", cafe).
Proof. split; [exact cafe_q|]. compute_all. Qed.

(* ---- C15: white space around encoded words ---- *)
Theorem C15_spacing : forall E l w i, f_mime E = true -> well_spaced l -> chars rfc_WSP w -> no_blank i ->
  mime_unstructured E (text_of l ++ w ++ CRLF ++ i) = Ok (CRLF ++ i, meaning false l).
Proof. exact spaced_read. Qed.
Print Assumptions C15_spacing.
Theorem C15_subject : forall E n l w i, f_mime E = true -> same_nocase n (bs "Subject") -> well_spaced l -> chars rfc_WSP w -> no_blank i ->
  field_subject E (n ++ bs ":" ++ text_of l ++ w ++ CRLF ++ i) = Ok (i, meaning false l).
Proof. exact spaced_subject. Qed.
Print Assumptions C15_subject.
Theorem C15_unknown : forall E n l w i, f_unrecognized_headers E = true -> chars1 rfc_ftext n -> well_spaced l -> chars rfc_WSP w -> no_blank i ->
  unknown E (n ++ bs ":" ++ text_of l ++ w ++ CRLF ++ i) = Ok (i, (n, meaning false l)).
Proof. exact spaced_unknown. Qed.
Print Assumptions C15_unknown.
Definition some_text : list spaced :=
  [(bs " ", bs " ", Plain (bs "a")); (bs " ", bs " ", Encoded (bs "=?utf-8?b?Yg==?=") (bs "b")); (bs "  ", bs "  ", Encoded (bs "=?utf-8?q?c_?=") (bs "c "));
   (bs " ", bs " ", Plain (bs "d"))].
Example C15_example : well_spaced some_text /\ text_of some_text = bs " a =?utf-8?b?Yg==?=  =?utf-8?q?c_?= d" /\ meaning false some_text = bs " a bc  d"
  /\ field_subject env_mime (bs "subject:" ++ text_of some_text ++ bs " " ++ CRLF) = Ok ([], bs " a bc  d").
Proof.
  split; [|compute_all].
  assert (B : forall s, chars1 rfc_WSP s -> rfc_oFWS s s). { intros s Hs. apply oFWS_some. now constructor. }
  assert (C : chars1 rfc_WSP (bs " ") /\ chars1 rfc_WSP (bs "  ")).
  { split; (split; [discriminate|apply Forall_forall; intros x Hx; vm_compute in Hx; unfold rfc_WSP; lia]). }
  assert (P : forall w, chars1 rfc_VCHAR w -> length w = 1%nat -> good_item (Plain w)).
  { intros w Hw Hl. split; auto. intros a b E. rewrite E in Hl. rewrite !app_length in Hl. cbn in Hl. lia. }
  assert (V : chars1 rfc_VCHAR (bs "a") /\ chars1 rfc_VCHAR (bs "d")).
  { split; (split; [discriminate|apply Forall_forall; intros x Hx; vm_compute in Hx; unfold rfc_VCHAR; lia]). }
  destruct C as [C1 C2], V as [V1 V2]. cbn [well_spaced some_text].
  split; [auto|]. split; [now apply P|]. split; [|discriminate]. split; [auto|]. split.
  { apply (written_encoded_intro (bs "utf-8") [] (bs "b") (bs "Yg==") (bs "b")); try reflexivity; try discriminate; [constructor|].
    apply (written_b (bs "b") (bs "b")). reflexivity. }
  split; [|exact I]. split; [auto|]. split.
  { apply (written_encoded_intro (bs "utf-8") [] (bs "q") (bs "c_") (bs "c ")); try reflexivity; try discriminate; [constructor|].
    apply written_q; [reflexivity|]. apply (q_char 99 (bs "_") (bs " ")); try lia. apply (q_space [] []). constructor. }
  split; [|exact I]. split; [auto|]. split; [now apply P|]. split; exact I.
Qed.

(* ---- C35: hash map order ---- *)
(* builds without overflow checks: a mail gives the same email or the same error *)
Theorem C35_email : forall E h h' data, env_ok E -> debug E = false -> an_order h -> an_order h' ->
  same_result same_email (parse (with_order E h) data) (parse (with_order E h') data).
Proof. exact parse_order_result. Qed.
Print Assumptions C35_email.
Theorem C35_raw_entity : forall E h h' data, env_ok E -> debug E = false -> an_order h -> an_order h' ->
  same_result same_entity (raw_entity (with_order E h) data) (raw_entity (with_order E h') data).
Proof. exact raw_entity_order_result. Qed.
Print Assumptions C35_raw_entity.
Theorem C35_entity : forall E h h' r r', env_ok E -> debug E = false -> an_order h -> an_order h' -> same_entity r r' ->
  same_result same_parsed (entity (with_order E h) r) (entity (with_order E h') r').
Proof. exact entity_order_result. Qed.
Print Assumptions C35_entity.
(* any build: one header *)
Theorem C35_content_type : forall E h h' i r t s l, an_order h -> an_order h' -> content_type (with_order E h) i = Ok (r, (t, s, l)) ->
  exists l', content_type (with_order E h') i = Ok (r, (t, s, l')) /\ same_map l l'.
Proof. exact content_type_any_order. Qed.
Print Assumptions C35_content_type.
Theorem C35_content_disposition : forall E h h' i r d, an_order h -> an_order h' -> content_disposition (with_order E h) i = Ok (r, d) ->
  exists d', content_disposition (with_order E h') i = Ok (r, d') /\ same_disposition_t d d'.
Proof. exact disposition_any_order. Qed.
Print Assumptions C35_content_disposition.
(* two orders that store the parameters differently *)
Definition split_header : bytes := bs "Content-Type: a/b; x*0=1; y*1=3; y*0=2" ++ CRLF.
Example C35_example : an_order (fun l => l) /\ an_order (@rev bytes)
  /\ content_type (with_order env_mime (fun l => l)) split_header = Ok ([], (CUnknown (bs "a"), bs "b", [(bs "x", bs "1"); (bs "y", bs "23")]))
  /\ content_type (with_order env_mime (@rev bytes)) split_header = Ok ([], (CUnknown (bs "a"), bs "b", [(bs "y", bs "23"); (bs "x", bs "1")])).
Proof. split; [intros l; reflexivity|]. split; [intros l; apply Permutation_sym, Permutation_rev|]. compute_all. Qed.

(* ---- C36: parameters ---- *)
Theorem C36_content_type_back : forall E hn c t s ps raw m i, an_order (hash_order E) -> same_nocase hn (bs "Content-Type") -> clear_keyword mime_types CUnknown c t ->
  mime_token s -> many_of written_param ps raw -> (forall n, stands_for (most_segments E) raw n (m n)) -> no_blank i ->
  exists l, content_type E (hn ++ bs ": " ++ c ++ bs "/" ++ s ++ ps ++ CRLF ++ i) = Ok (i, (t, map fold_case s, l)) /\ forall n, map_get l n = m n.
Proof. exact params_read. Qed.
Print Assumptions C36_content_type_back.
Theorem C36_content_disposition_back : forall E hn c k ps raw m i, an_order (hash_order E) -> same_nocase hn (bs "Content-Disposition") ->
  clear_keyword mime_dispositions DUnknown c k -> many_of written_param ps raw -> ordinary_params raw ->
  (forall n, stands_for (most_segments E) raw n (m n)) -> no_blank i ->
  exists d, content_disposition E (hn ++ bs ": " ++ c ++ ps ++ CRLF ++ i) = Ok (i, d) /\ disposition_type d = k /\ disp_filename d = None /\
    forall n, map_get (disp_unstructured d) n = m n.
Proof. exact disposition_read. Qed.
Print Assumptions C36_content_disposition_back.
(* any names and any UTF-8 texts *)
Theorem C36_every_map_written : forall l, writable_params l ->
  exists ps raw, many_of written_param ps raw /\ ordinary_params raw /\ forall n, stands_for 255 raw n (map_get l n).
Proof. exact some_params. Qed.
Print Assumptions C36_every_map_written.
Definition some_raw : list param :=
  [(bs "title", Some 1, true, bs "%c3%A9"); (bs "charset", None, false, bs "x"); (bs "title", Some 2, false, bs " %41"); (bs "charset", None, false, bs "y z");
   (bs "title", Some 0, true, bs "Utf-8'fr'caf")]%N.
Definition some_params_text : bytes := bs "; TITLE*01*=%c3%A9; Charset=x; title*2="" %41""; charset=""y\ z""; title*0*=Utf-8'fr'caf".
Example C36_example : many_of written_param some_params_text some_raw
  /\ stands_for 255 some_raw (bs "title") (Some (bs "caf" ++ [195; 169]%N ++ bs " %41"))
  /\ stands_for 255 some_raw (bs "charset") (Some (bs "y z")) /\ stands_for 255 some_raw (bs "z") None
  /\ exists l, content_type env_mime (bs "content-type: Text/Plain" ++ some_params_text ++ CRLF) = Ok ([], (CText, bs "plain", l))
       /\ map_get l (bs "title") = Some (bs "caf" ++ [195; 169]%N ++ bs " %41") /\ map_get l (bs "charset") = Some (bs "y z").
Proof.
  assert (T : forall s, s <> [] -> Forall mime_token_char s -> mime_token s) by (intros; now split).
  assert (D : forall s, s <> [] -> Forall rfc_DIGIT s -> chars1 rfc_DIGIT s) by (intros; now split).
  Local Ltac toks := apply Forall_forall; let x := fresh in let H := fresh in intros x H; vm_compute in H; unfold mime_token_char, rfc_DIGIT; cbn; lia.
  split; [|split; [|split; [|split]]].
  - apply (many_cons written_param (bs "; TITLE*01*=%c3%A9") (bs "title", Some 1%N, true, bs "%c3%A9")).
    { apply (written_param_intro (bs "TITLE") (Some 1%N) true (bs "TITLE*01*") (bs "%c3%A9")); [split; [discriminate|toks]| |intros k [= <-]; lia|constructor; apply T; [discriminate|toks]].
      exists (bs "01"). split; [apply D; [discriminate|toks]|]. split; reflexivity. }
    apply (many_cons written_param (bs "; Charset=x") (bs "charset", None, false, bs "x")).
    { apply (written_param_intro (bs "Charset") None false (bs "Charset") (bs "x")); [split; [discriminate|toks]|split; reflexivity|discriminate|constructor; apply T; [discriminate|toks]]. }
    apply (many_cons written_param (bs "; title*2="" %41""") (bs "title", Some 2%N, false, bs " %41")).
    { apply (written_param_intro (bs "title") (Some 2%N) false (bs "title*2") (bs """ %41""")); [split; [discriminate|toks]| |intros k [= <-]; lia|].
      - exists (bs "2"). split; [apply D; [discriminate|toks]|]. split; reflexivity.
      - apply (value_quoted (bs " %41")). change (quoting [32; 37; 52; 49] [32; 37; 52; 49])%N. repeat (apply quoting_plain; [unfold printable, rfc_VCHAR, rfc_WSP; lia|lia|lia|]). constructor. }
    apply (many_cons written_param (bs "; charset=""y\ z""") (bs "charset", None, false, bs "y z")).
    { apply (written_param_intro (bs "charset") None false (bs "charset") (bs """y\ z""")); [split; [discriminate|toks]|split; reflexivity|discriminate|].
      apply (value_quoted (bs "y\ z")). apply (quoting_plain 121%N (bs "\ z") (bs " z")); [unfold printable, rfc_VCHAR, rfc_WSP; lia|lia|lia|].
      apply (quoting_pair 32%N (bs "z") (bs "z")); [unfold printable, rfc_VCHAR, rfc_WSP; lia|].
      apply (quoting_plain 122%N [] []); [unfold printable, rfc_VCHAR, rfc_WSP; lia|lia|lia|]. constructor. }
    apply (many_cons written_param (bs "; title*0*=Utf-8'fr'caf") (bs "title", Some 0%N, true, bs "Utf-8'fr'caf") []); [|constructor].
    apply (written_param_intro (bs "title") (Some 0%N) true (bs "title*0*") (bs "Utf-8'fr'caf")); [split; [discriminate|toks]| |intros k [= <-]; lia|constructor; apply T; [discriminate|toks]].
    exists (bs "0"). split; [apply D; [discriminate|toks]|]. split; reflexivity.
  - apply (stands_cut 255 some_raw (bs "title") [(true, bs "Utf-8'fr'caf"); (true, bs "%c3%A9"); (false, bs " %41")]); [|apply (cut_encoded (bs "Utf-8") (bs "fr") (bs "caf") (bs "caf"))|cbn; lia].
    + apply (Permutation_app_comm [(1, (true, bs "%c3%A9")); (2, (false, bs " %41"))]%N [(0, (true, bs "Utf-8'fr'caf"))]%N).
    + reflexivity.
    + intros X. vm_compute in X. lia.
    + change (percent_encodes [99; 97; 102] [99; 97; 102])%N. repeat (apply pe_literal; [discriminate|]). constructor.
    + reflexivity.
    + apply (rest_encoded true (bs "%c3%A9") [195; 169]%N); [reflexivity| |reflexivity|].
      * apply (pe_escape 195%N 99%N 51%N 12%N 3%N); try reflexivity. apply (pe_escape 169%N 65%N 57%N 10%N 9%N); try reflexivity. constructor.
      * apply (rest_literal true (bs " %41") [] []). constructor.
  - apply (stands_plain 255 some_raw (bs "charset")). reflexivity.
  - apply (stands_plain 255 some_raw (bs "z")). reflexivity.
  - eexists. compute_all.
Qed.

(* ---- C37: extended parameters without an index ---- *)
(* RFC 2231 4: title*=utf-8''%41 is the text "A"; the raw text is returned *)
Theorem C37_extended_parameter_refuted : exists t u, percent_encodes u t /\ utf8_valid u = true /\
  forall E, an_order (hash_order E) ->
    content_type E (bs "Content-Type: text/plain; title*=utf-8''" ++ t ++ CRLF) = Ok ([], (CText, bs "plain", [(bs "title", bs "utf-8''" ++ t)])) /\
    bs "utf-8''" ++ t <> u.
Proof. exact extended_raw. Qed.
Print Assumptions C37_extended_parameter_refuted.
(* nor is filename*= or filename*0*= a file name *)
Theorem C37_extended_filename_refuted : exists t u, percent_encodes u t /\ utf8_valid u = true /\
  forall E, an_order (hash_order E) -> exists d d',
    content_disposition E (bs "Content-Disposition: attachment; filename*=utf-8''" ++ t ++ CRLF) = Ok ([], d) /\ disp_filename d = None /\
    content_disposition E (bs "Content-Disposition: attachment; filename*0*=utf-8''" ++ t ++ CRLF) = Ok ([], d') /\ disp_filename d' = None.
Proof. exact extended_filename. Qed.
Print Assumptions C37_extended_filename_refuted.

(* ---- C38: MIME versions ---- *)
Theorem C38_version_back : forall E n c1 c2 i, same_nocase n (bs "MIME-Version") -> chars1 rfc_DIGIT c1 -> chars1 rfc_DIGIT c2 -> (number c1 < 256)%N -> (number c2 < 256)%N ->
  mime_version E (n ++ bs ": " ++ c1 ++ bs "." ++ c2 ++ CRLF ++ i) = Ok (i, (number c1, number c2)).
Proof. exact version_read. Qed.
Print Assumptions C38_version_back.
Theorem C38_version_exact : forall E data i x y, mime_version E data = Ok (i, (x, y)) ->
  exists c, data = c ++ i /\ rfc_header "MIME-Version" rfc_mime_version c (x, y) /\ (x < 256)%N /\ (y < 256)%N.
Proof. exact version_sound. Qed.
Print Assumptions C38_version_exact.
Theorem C38_larger_refused : forall E n c1 c2 i, same_nocase n (bs "MIME-Version") -> chars1 rfc_DIGIT c1 -> chars1 rfc_DIGIT c2 -> (256 <= number c1 \/ 256 <= number c2)%N ->
  exists e, mime_version E (n ++ bs ": " ++ c1 ++ bs "." ++ c2 ++ i) = Err e.
Proof. exact version_big. Qed.
Print Assumptions C38_larger_refused.
Example C38_example : number (bs "0255") = 255%N /\ number (bs "257") = 257%N
  /\ mime_version env_mime (bs "mime-VERSION: 0255.0" ++ CRLF) = Ok ([], (255, 0)%N)
  /\ (exists e, mime_version env_mime (bs "MIME-Version: 1.257" ++ CRLF) = Err e).
Proof. split; [reflexivity|]. split; [reflexivity|]. split; [vm_compute; reflexivity|]. eexists; vm_compute; reflexivity. Qed.

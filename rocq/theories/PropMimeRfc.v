(* C66: the MIME headers and RFC 2045, RFC 2183. *)
From Coq Require Import Lia.
From Verif Require Import Base Percent MimeFields Entity Fields Rfc5322 RfcFields Envs EnvOk Writers MimeRfcSpec MimeRfcFacts MimeRfcMore.
Local Open Scope N_scope.
Ltac compute_all := lazymatch goal with |- _ /\ _ => split; compute_all | _ => vm_compute; reflexivity end.

(* a header that is recognised conforms, and means what its tokens say *)
Theorem C66_type_conforms : forall E h i k s l, env_ok E -> content_type E h = Ok (i, (k, s, l)) ->
  exists n t c s' ps, h = n ++ bs ":" ++ t ++ CRLF ++ i /\ same_nocase n (bs "Content-Type") /\ rfc2045_type t c s' ps /\
    rfc_keyword mime_types CUnknown c k /\ s = map fold_case s' /\ (no_extension ps -> forall a, map_get l a = attribute ps a).
Proof. exact type_conforms. Qed.
Print Assumptions C66_type_conforms.
Theorem C66_mechanism_conforms : forall E h i e, content_transfer_encoding E h = Ok (i, e) ->
  exists n t c, h = n ++ bs ":" ++ t ++ CRLF ++ i /\ same_nocase n (bs "Content-Transfer-Encoding") /\ rfc2045_mechanism t c /\ rfc_keyword mime_encodings UnknownEnc c e.
Proof. exact mechanism_conforms. Qed.
Print Assumptions C66_mechanism_conforms.
Theorem C66_version_conforms : forall E h i v, mime_version E h = Ok (i, v) ->
  exists n t, h = n ++ bs ":" ++ t ++ CRLF ++ i /\ same_nocase n (bs "MIME-Version") /\ rfc2045_version t v.
Proof. exact version_conforms. Qed.
Print Assumptions C66_version_conforms.
(* a disposition conforms if no date has been read from it *)
Theorem C66_disposition_conforms : forall E h i d, env_ok E -> content_disposition E h = Ok (i, d) ->
  disp_creation_date d = None -> disp_modification_date d = None -> disp_read_date d = None ->
  exists n t c ps, h = n ++ bs ":" ++ t ++ CRLF ++ i /\ same_nocase n (bs "Content-Disposition") /\ rfc2183_disposition t c ps /\
    rfc_keyword mime_dispositions DUnknown c (disposition_type d) /\ disp_filename d = attribute ps (bs "filename") /\
    (no_extension ps -> forall a, a <> bs "filename" -> map_get (disp_unstructured d) a = attribute ps a).
Proof. exact disposition_conforms. Qed.
Print Assumptions C66_disposition_conforms.
(* with a date, it need not: comments are allowed in it although it is quoted *)
Theorem C66_dated_disposition_refuted : forall E, In E [env_default; env_mime; env_all_debug] ->
  exists t d, content_disposition E (bs "Content-Disposition:" ++ t ++ CRLF) = Ok ([], d) /\ forall c ps, ~ rfc2183_disposition t c ps.
Proof. exact date_does_not_conform. Qed.
Print Assumptions C66_dated_disposition_refuted.

(* a header that conforms is recognised if it is compact *)
Theorem C66_type_understood : forall E n t c s ps i, env_ok E -> same_nocase n (bs "Content-Type") -> compact_type t c s ps -> no_extension ps -> no_blank i ->
  exists k l, rfc_keyword mime_types CUnknown c k /\ content_type E (n ++ bs ":" ++ t ++ CRLF ++ i) = Ok (i, (k, map fold_case s, l)) /\ forall a, map_get l a = attribute ps a.
Proof. exact type_understood. Qed.
Print Assumptions C66_type_understood.
Theorem C66_compact_type : forall t c s ps, compact_type t c s ps -> rfc2045_type t c s ps.
Proof. exact compact_rfc. Qed.
Print Assumptions C66_compact_type.
Theorem C66_mechanism_understood : forall E n t c (i : bytes), same_nocase n (bs "Content-Transfer-Encoding") -> compact_mechanism t c ->
  exists e, rfc_keyword mime_encodings UnknownEnc c e /\ content_transfer_encoding E (n ++ bs ":" ++ t ++ CRLF ++ i) = Ok (i, e).
Proof. exact mechanism_understood. Qed.
Print Assumptions C66_mechanism_understood.
(* otherwise it may not be: a type that starts with a known one, white space around "/" or "=", two
   comments at the end, and the third example of RFC 2045 4 *)
Theorem C66_longer_type_refuted : exists t c s ps, rfc2045_type t c s ps /\
  forall E, In E [env_default; env_mime; env_all_debug] -> exists e, content_type E (bs "Content-Type:" ++ t ++ CRLF) = Err e.
Proof. exact longer_type_lost. Qed.
Print Assumptions C66_longer_type_refuted.
Theorem C66_slash_refuted : exists t c s ps, rfc2045_type t c s ps /\
  forall E, In E [env_default; env_mime; env_all_debug] -> exists e, content_type E (bs "Content-Type:" ++ t ++ CRLF) = Err e.
Proof. exact slash_lost. Qed.
Print Assumptions C66_slash_refuted.
Theorem C66_equals_refuted : rfc2045_type spaced_boundary (bs "multipart") (bs "mixed") [(bs "boundary", bs "x")] /\
  forall E, In E [env_default; env_mime; env_all_debug] -> exists e, content_type E (bs "Content-Type:" ++ spaced_boundary ++ CRLF) = Err e.
Proof. exact (conj spaced_boundary_rfc equals_lost). Qed.
Print Assumptions C66_equals_refuted.
Theorem C66_comments_refuted : rfc2045_type two_comments (bs "text") (bs "plain") [] /\
  forall E, In E [env_default; env_mime; env_all_debug] -> exists e, content_type E (bs "Content-Type:" ++ two_comments ++ CRLF) = Err e.
Proof. exact (conj two_comments_rfc comments_lost). Qed.
Print Assumptions C66_comments_refuted.
Theorem C66_version_refuted : rfc2045_version meta_send (1, 0) /\
  forall E, In E [env_default; env_mime; env_all_debug] -> exists e, mime_version E (bs "MIME-Version:" ++ meta_send ++ CRLF) = Err e.
Proof. exact (conj meta_send_rfc meta_send_lost). Qed.
Print Assumptions C66_version_refuted.

(* a folded header with comments and a quoted value; and a picture that becomes a text, as its
   header is not recognised *)
Definition rfc_header_text : bytes := bs " (x)" ++ CRLF ++ bs " Image/PNG ;" ++ CRLF ++ bs " Name=""a b"" (y); q=1 ".
Example C66_example : compact_type rfc_header_text (bs "Image") (bs "PNG") [(bs "Name", bs "a b"); (bs "q", bs "1")]
  /\ no_extension [(bs "Name", bs "a b"); (bs "q", bs "1")]
  /\ (exists l, content_type env_mime (bs "content-type:" ++ rfc_header_text ++ CRLF) = Ok ([], (CImage, bs "png", l)) /\ map_get l (bs "name") = Some (bs "a b") /\ map_get l (bs "q") = Some (bs "1"))
  /\ (exists d, content_disposition env_mime (bs "Content-Disposition: Inline; size=3; FileName=""b c""" ++ CRLF) = Ok ([], d) /\ disposition_type d = DInline
        /\ disp_filename d = Some (bs "b c") /\ map_get (disp_unstructured d) (bs "size") = Some (bs "3"))
  /\ (exists r, raw_entity env_mime (bs "Content-Type: image/png" ++ CRLF ++ CRLF ++ bs "x") = Ok r /\ e_mime_type r = CImage)
  /\ exists r, raw_entity env_mime (bs "Content-Type: image / png" ++ CRLF ++ CRLF ++ bs "x") = Ok r /\ e_mime_type r = CText.
Proof.
  Local Ltac chars_ok := split; [discriminate|]; repeat (constructor; [unfold mime_token_char; vm_compute; intuition discriminate|]); constructor.
  Local Ltac fws := apply oCFWS_some; eapply CFWS_fws; apply FWS_plain; (split; [discriminate|]); repeat (constructor; [now left|]); constructor.
  split; [|split; [repeat (constructor; [vm_compute; intuition discriminate|]); constructor|]].
  - apply (compact_type_intro (bs " (x)" ++ CRLF ++ bs " ") (bs "Image") (bs "PNG") (bs " ;" ++ CRLF ++ bs " Name=""a b"" (y); q=1") [(bs "Name", bs "a b"); (bs "q", bs "1")] (bs " ")).
    + apply oCFWS_some. apply (CFWS_comments (bs " (x)") (CRLF ++ bs " ") (bs " ")).
      * apply (comments_one (bs " ") (bs " ") (bs "(x)")); [apply oFWS_some, FWS_plain; split; [discriminate|]; constructor; [now left|constructor]|]. apply letter_comment. right; right; vm_compute; split; discriminate.
      * apply oFWS_some. apply (FWS_fold [] (bs " ")); [constructor|]. split; [discriminate|]. constructor; [now left|constructor].
    + chars_ok.
    + intros n a x y Hin X Hx. vm_compute in Hin. assert (L : length x = length n) by (apply (f_equal (@length _)) in Hx; now rewrite !map_length in Hx).
      repeat destruct Hin as [Hin|Hin]; try (destruct Hin; fail); injection Hin as <- <-; cbn [length] in L;
        repeat (destruct x as [|? x]; try discriminate L); vm_compute in X; try discriminate X; injection X; intros; subst; try reflexivity; vm_compute in Hx; discriminate.
    + chars_ok.
    + apply (compact_quoted (bs " ") (CRLF ++ bs " ") (bs "Name") (bs "a b") (bs "a b") (bs " (y); q=1")); [fws| |chars_ok| |].
      * apply oCFWS_some. eapply CFWS_fws. apply (FWS_fold [] (bs " ")); [constructor|]. split; [discriminate|]. constructor; [now left|constructor].
      * apply (qbody_cons [] [] [97] 97 (bs " b") (bs " b")); [constructor|constructor; unfold rfc_qtext; lia|]. apply (qbody_cons [32] [32] [98] 98 [] []); [|constructor; unfold rfc_qtext; lia|apply qbody_end; constructor].
        apply oFWS_some, FWS_plain. split; [discriminate|]. constructor; [now left|constructor].
      * apply (compact_token (bs " (y)") (bs " ") (bs "q") (bs "1") [] []); [|fws|chars_ok|chars_ok|constructor].
        apply oCFWS_some. rewrite <- (app_nil_r (bs " (y)")). apply (CFWS_comments (bs " (y)") [] []); [|constructor].
        apply (comments_one (bs " ") (bs " ") (bs "(y)")); [apply oFWS_some, FWS_plain; split; [discriminate|]; constructor; [now left|constructor]|]. apply letter_comment. right; right; vm_compute; split; discriminate.
    + apply (inline_blank (bs " ") []); [|constructor]. constructor; [now left|constructor].
  - split; [|split; [|split]]; eexists; (split; [vm_compute; reflexivity|]); compute_all.
Qed.

(* Properties C53 and C41: with the mime feature, the parser is exactly a grammar. *)
From Coq Require Import Lia.
From Verif Require Import Base Utf8 Time Address MimeFields Fields Message Entity Email Envs EnvOk Rfc5322 Rfc2047 CodecSpec RfcFields EmailSpec Complete CompleteFields ForwardFields LineSpec RegularSpec KeenFacts ExactSpec PhraseSpec MimeExactSpec MimeExactFields MimeExactFacts PhraseHeads.
Local Open Scope N_scope.

(* ---- C53 ---- *)
(* Email::parse succeeds on the texts of the grammar that have an email, and only on them *)
Theorem C53_exact : forall E, env_ok E -> f_mime E = true -> debug E = false -> forall d,
  (exists e, parse E d = Ok e) <-> exists fs b e, mime_message_read E d fs b /\ email_of E fs b e.
Proof. exact mime_parse_iff. Qed.
Print Assumptions C53_exact.
(* it fails on all the other texts *)
Theorem C53_rejected : forall E, env_ok E -> f_mime E = true -> debug E = false -> forall d,
  (exists err, parse E d = Err err) <-> ~ exists fs b e, mime_message_read E d fs b /\ email_of E fs b e.
Proof. exact mime_rejected_iff. Qed.
Print Assumptions C53_rejected.
(* the email returned is one of the text *)
Theorem C53_email : forall E, env_ok E -> f_mime E = true -> debug E = false -> forall d e,
  parse E d = Ok e -> exists fs b, mime_message_read E d fs b /\ email_of E fs b e.
Proof. exact mime_parse_back. Qed.
Print Assumptions C53_email.
(* and any other one of the text has the same fields, up to the order of parameters *)
Theorem C53_same : forall E, env_ok E -> f_mime E = true -> debug E = false -> forall d fs b e,
  mime_message_read E d fs b -> email_of E fs b e -> exists fs' e', parse E d = Ok e' /\ Forall2 same_field fs fs' /\ email_of E fs' b e'.
Proof. exact mime_parse_forward. Qed.
Print Assumptions C53_same.
(* the same for parsing::message::parse_message *)
Theorem C53_message : forall E, env_ok E -> f_mime E = true -> debug E = false -> forall d fs b,
  parse_message E d = Ok (fs, b) -> mime_message_read E d fs b.
Proof. exact mime_message_back. Qed.
Print Assumptions C53_message.
Theorem C53_message_read : forall E, env_ok E -> f_mime E = true -> debug E = false -> forall d fs b,
  mime_message_read E d fs b -> exists fs', parse_message E d = Ok (fs', b) /\ Forall2 same_field fs fs'.
Proof. exact mime_message_forward. Qed.
Print Assumptions C53_message_read.
(* one header *)
Theorem C53_field : forall E, env_ok E -> f_mime E = true -> debug E = false -> forall c i, new_line i ->
  (exists f, any_field E (c ++ i) = Ok (i, f)) <-> exists f, mime_read E c f.
Proof. exact mime_field_iff. Qed.
Print Assumptions C53_field.
(* a mail is rejected if a MIME header is followed by a folded line that continues it with anything
   but a parameter, be it a comment; or if keywords that end with an encoded word are followed by a
   folded line that does not start with a further word *)
Theorem C53_cut : forall E ls c w z i, env_ok E -> f_mime E = true -> debug E = false -> Forall proper_line ls -> cut_field E c (w :: z ++ CRLF) -> rfc_WSP w -> new_line i ->
  exists err, parse E (block_text ls ++ c ++ (w :: z ++ CRLF) ++ i) = Err err.
Proof. exact cut_rejected. Qed.
Print Assumptions C53_cut.
(* a mail with encoded words in its subject, the name of its author and its keywords, a Content-Type with a comment, a quoted parameter
   after a fold and a parameter in two segments, and a Content-Disposition whose date is none *)
Definition ex_from : line := (bs "From", bs " =?utf-8?Q?A_?= (c) =?x?= <a@b.c>").
Definition ex_lines : list line :=
  [ex_from; (bs "Date", bs " 5 May 2003 18:58:34 +0000"); (bs "subject", bs " =?utf-8?Q?x_y?= z");
   (bs "Keywords", bs " a =?utf-8?Q?k?=" ++ CRLF ++ bs " =?utf-8?Q?l?=, (c) b");
   (bs "Content-Type", bs " text/plain (c);" ++ CRLF ++ bs " charset=""utf-8""; name*1=d; name*0*=utf-8''c%20"); (bs "Content-Transfer-Encoding", bs " 8BIT (d) ");
   (bs "Content-Disposition", bs " attachment; creation-date=""soon""; read-date=""5 May 2003 18:58:34 +0000""; filename=f.g")].
Definition ex_mail : bytes := block_text ex_lines ++ CRLF ++ bs "text".
(* a complete header, and a comment in the next line *)
Definition ex_whole : bytes := bs "Content-Transfer-Encoding: 8bit" ++ CRLF.
Definition ex_folded : bytes := bs " (c)".
(* keywords, and a comma in the next line *)
Definition ex_words : bytes := bs "Keywords: =?utf-8?Q?k?=" ++ CRLF.
Definition ex_comma : bytes := bs " , b".
Definition ex_rest : bytes := CRLF ++ bs "text".
Ltac is_lined := match goal with |- lined ?t => let t' := eval vm_compute in t in change (lined t') end; repeat first [apply lined_nil|apply lined_fold; [unfold rfc_WSP; lia|]|apply lined_char; [unfold rfc_VCHAR, rfc_WSP; lia|]].
Ltac is_chars := split; [discriminate|]; unfold chars; match goal with |- Forall _ ?t => let t' := eval vm_compute in t in change (Forall rfc_ftext t') end; unfold rfc_ftext; repeat (apply Forall_cons; [lia|]); apply Forall_nil.
Ltac compute_all := lazymatch goal with |- _ /\ _ => split; compute_all | _ => vm_compute; reflexivity end.
Example C53_example : env_ok env_mime /\ f_mime env_mime = true /\ debug env_mime = false /\ Forall proper_line (firstn 2 ex_lines) /\
  (exists fs b e, mime_message_read env_mime ex_mail fs b /\ email_of env_mime fs b e /\ parse env_mime ex_mail = Ok e /\ subject e = Some (bs " x y z") /\
     map m_name (from e) = [Some [bs "A "; bs "=?x?="]] /\ keywords e = [[bs "a"; bs "k"; bs "l"]; [bs "b"]] /\
     option_map e_parameters (mime_entity e) = Some [(bs "charset", bs "utf-8"); (bs "name", bs "c d")]) /\
  cut_field env_mime ex_whole (ex_folded ++ CRLF) /\
  (exists e, parse env_mime (block_text (firstn 2 ex_lines) ++ ex_whole ++ ex_rest) = Ok e) /\
  (exists err, parse env_mime (block_text (firstn 2 ex_lines) ++ ex_whole ++ (ex_folded ++ CRLF) ++ ex_rest) = Err err) /\
  cut_field env_mime ex_words (ex_comma ++ CRLF) /\
  (exists e, parse env_mime (block_text (firstn 2 ex_lines) ++ ex_words ++ ex_rest) = Ok e) /\
  exists err, parse env_mime (block_text (firstn 2 ex_lines) ++ ex_words ++ (ex_comma ++ CRLF) ++ ex_rest) = Err err.
Proof.
  assert (HP : Forall proper_line (firstn 2 ex_lines)) by (unfold ex_lines, ex_from; cbn [firstn]; do 2 (apply Forall_cons; [split; [is_chars|is_lined]|]); apply Forall_nil).
  assert (HC : cut_field env_mime ex_whole (ex_folded ++ CRLF)).
  { apply (cut_encoding _ _ HeightBit). apply (header_intro _ _ (bs "Content-Transfer-Encoding") (bs " 8bit")); [reflexivity|]. apply (clear_encoding_intro (bs " ") (bs "8bit") HeightBit []).
    - apply oCFWS_some, (CFWS_fws _ (bs " ")). apply FWS_plain. split; [discriminate|]. constructor; [now left|constructor].
    - apply (clear_known _ _ (bs "8bit")); [cbn; tauto|reflexivity].
    - apply (inline_blank [] []); constructor. }
  assert (HK : cut_field env_mime ex_words (ex_comma ++ CRLF)).
  { assert (K : any_field env_mime (ex_words ++ ex_comma ++ CRLF) = Ok (ex_comma ++ CRLF, FKeywords [[bs "k"]])) by (vm_compute; reflexivity).
    destruct (keywords_at env_mime eq_refl _ _ _ K) as (n & k & t & X & Hn & Ht & Hk & HO).
    assert (NC : ~ In 58 n) by (apply (fold_nocolon n (bs "Keywords") Hn); no_colon). apply (colon_unique (bs "Keywords") n _ (t ++ CRLF ++ ex_comma ++ CRLF)) in X as [<- X]; [|no_colon|exact NC].
    change (bs " =?utf-8?Q?k?=" ++ CRLF ++ ex_comma ++ CRLF = t ++ CRLF ++ ex_comma ++ CRLF) in X. apply app_inv_tail in X. subst t. destruct k.
    - exact (cut_keywords env_mime (bs "Keywords") _ _ _ eq_refl eq_refl Ht HO).
    - exfalso. destruct (Hk eq_refl) as (a & u & Y & _); [exists 32, (bs ", b" ++ CRLF); split; [reflexivity|now left]|].
      assert (I : In 13 (bs " =?utf-8?Q?k?=")) by (rewrite Y; apply in_or_app; right; left; reflexivity). vm_compute in I. repeat (destruct I as [I|I]; [discriminate I|]). destruct I. }
  split; [exact env_mime_ok|]. split; [reflexivity|]. split; [reflexivity|]. split; [exact HP|]. split; [|split; [exact HC|split; [|split; [|split; [exact HK|split]]]]].
  - destruct (parse env_mime ex_mail) as [e|err|k] eqn:P; [|vm_compute in P; discriminate..]. pose proof P as P'. apply (mime_parse_back env_mime env_mime_ok eq_refl eq_refl) in P' as (fs & b & H1 & H2).
    exists fs, b, e. split; [exact H1|]. split; [exact H2|]. split; [reflexivity|]. vm_compute in P. injection P as <-. split; [reflexivity|]. split; [reflexivity|]. split; reflexivity.
  - eexists. vm_compute. reflexivity.
  - apply (cut_rejected env_mime (firstn 2 ex_lines) ex_whole 32 (bs "(c)") ex_rest env_mime_ok eq_refl eq_refl HP HC); [now left|]. intros c r X [Y|Y]; rewrite Y in X; discriminate X.
  - eexists. vm_compute. reflexivity.
  - apply (cut_rejected env_mime (firstn 2 ex_lines) ex_words 32 (bs ", b") ex_rest env_mime_ok eq_refl eq_refl HP HK); [now left|]. intros c r X [Y|Y]; rewrite Y in X; discriminate X.
Qed.

(* ---- C41: which headers are recognised ---- *)
(* with mime: the phrases being read from left to right *)
Theorem C41_structured_exact : forall E c f i, env_ok E -> f_mime E = true -> structured_kind f -> new_line i -> any_field E (c ++ i) = Ok (i, f) <-> mime_field E c f.
Proof. exact structured_exact. Qed.
Print Assumptions C41_structured_exact.
Theorem C41_structured_plain : forall E c f i, env_ok E -> f_mime E = false -> structured_kind f -> new_line i -> any_field E (c ++ i) = Ok (i, f) <-> clear_field E c f.
Proof. exact structured_plain. Qed.
Print Assumptions C41_structured_plain.
(* the headers of trace blocks; see C52_received for Received *)
Theorem C41_resent_exact : forall E c f i, f_mime E = true -> new_line i -> resent_field E (c ++ i) = Ok (i, f) <-> phrase_resent E c f.
Proof. exact resent_exact. Qed.
Print Assumptions C41_resent_exact.
Theorem C41_resent_plain : forall E c f i, f_mime E = false -> new_line i -> resent_field E (c ++ i) = Ok (i, f) <-> clear_resent false (f_compatibility_fixes E) (encoded E) c f.
Proof. exact resent_plain. Qed.
Print Assumptions C41_resent_plain.
(* a group and a mailbox that have the same name; with an encoded word for it, the group is not
   recognised *)
Definition ex_end : bytes := bs "X: y" ++ CRLF.
Definition ex_group (name : bytes) : bytes := bs "To: " ++ name ++ bs ":;" ++ CRLF.
Example C41_exact_example : env_ok env_mime /\ f_mime env_mime = true /\ new_line ex_end /\
  any_field env_mime (ex_group (bs """a@b""") ++ ex_end) = Ok (ex_end, FTo [AGroup ([bs "a@b"], [])]) /\
  mime_field env_mime (ex_group (bs """a@b""")) (FTo [AGroup ([bs "a@b"], [])]) /\
  any_field env_mime (ex_group (bs "=?utf-8?Q?a@b?=") ++ ex_end) = Ok (ex_end, FUnknown (bs "To") (bs " =?utf-8?Q?a@b?=:;")) /\
  ~ mime_field env_mime (ex_group (bs "=?utf-8?Q?a@b?=")) (FTo [AGroup ([bs "a@b"], [])]).
Proof.
  assert (L : new_line ex_end) by (intros c r X [Y|Y]; rewrite Y in X; discriminate X).
  split; [exact env_mime_ok|]. split; [reflexivity|]. split; [exact L|]. split; [vm_compute; reflexivity|]. split; [|split; [vm_compute; reflexivity|]].
  - apply (structured_exact env_mime _ (FTo _) ex_end env_mime_ok eq_refl I L). vm_compute. reflexivity.
  - intros H. apply (structured_exact env_mime _ (FTo _) ex_end env_mime_ok eq_refl I L) in H. vm_compute in H. discriminate.
Qed.

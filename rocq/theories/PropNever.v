(* Property C74: without mime, a mail made of header lines is refused only for what is missing or repeated. *)
From Coq Require Import Lia.
From Verif Require Import Base Utf8 Time Address MimeFields Fields Message Entity Email Envs EnvOk Rfc5322 CodecSpec RfcFields EmailSpec LineSpec TruncSpec ShownSpec MultipartSpec MultipartRound Rfc2046Spec NeverSpec NeverFacts NeverParts.
Local Open Scope N_scope.
Ltac is_lined := match goal with |- lined ?t => let t' := eval vm_compute in t in change (lined t') end; repeat first [apply lined_nil|apply lined_fold; [unfold rfc_WSP; lia|]|apply lined_char; [unfold rfc_VCHAR, rfc_WSP; lia|]].
Ltac is_chars := split; [discriminate|]; unfold chars; match goal with |- Forall _ ?t => let t' := eval vm_compute in t in change (Forall rfc_ftext t') end; unfold rfc_ftext; repeat (apply Forall_cons; [lia|]); apply Forall_nil.
Ltac compute_all := lazymatch goal with |- _ /\ _ => split; compute_all | _ => vm_compute; reflexivity end.

(* ---- C74 ---- *)
(* whatever the headers are, the mail is accepted, or a mandatory header is missing, or a header is there twice *)
Theorem C74_lines : forall E ls r, env_ok E -> f_mime E = false -> Forall good_line ls -> (f_trace E = true -> untraced_start ls) -> body_part r ->
  (exists e, parse E (block_text ls ++ r) = Ok e) \/ (exists n, mandatory_name n /\ parse E (block_text ls ++ r) = Err (MissingHeader n)) \/
  exists n, repeated n ls /\ parse E (block_text ls ++ r) = Err (DuplicateHeader n).
Proof. exact good_lines. Qed.
Print Assumptions C74_lines.
(* a mail that is accepted stays so when headers with other names are put after its headers *)
Theorem C74_add : forall E ls more r e, env_ok E -> f_mime E = false -> Forall good_line (ls ++ more) -> (f_trace E = true -> Forall (fun x => ~ trace_line x) (ls ++ more)) -> body_part r ->
  parse E (block_text ls ++ r) = Ok e -> (forall n, ~ repeated n (ls ++ more)) -> exists e', parse E (block_text (ls ++ more) ++ r) = Ok e'.
Proof. exact good_added. Qed.
Print Assumptions C74_add.
(* in every configuration, no header of an accepted mail is lost: each line is a header that the email shows *)
Theorem C74_shown : forall E ls r e, env_ok E -> Forall proper_line ls -> (f_trace E = true -> Forall (fun x => ~ trace_line x) ls) -> r = [] \/ (exists b, r = CRLF ++ b) ->
  parse E (block_text ls ++ r) = Ok e -> Forall (fun x => exists f, field_text E (line_text x) f /\ shown f e) ls.
Proof. exact none_lost. Qed.
Print Assumptions C74_shown.

Definition strange : list line := [(bs "From", bs " a@b"); (bs "X~!", []); (bs "Date", bs " 5 May 2023 18:58 +0000"); (bs "To", bs " @@,:<"); (bs "Message-ID", bs " none" ++ CRLF ++ bs "  at all")].
Example C74_example : Forall good_line strange /\ body_part (CRLF ++ bs "hello") /\ exists e, parse env_default (block_text strange ++ CRLF ++ bs "hello") = Ok e /\ to e = None /\ message_id_of e = None /\ unknown_fields e = [(bs "X~!", []); (bs "To", bs " @@,:<"); (bs "Message-ID", bs " none  at all")].
Proof.
  split; [|split].
  - assert (NB : forall t, existsb (fun k => match skipn k (t ++ CRLF) with 13 :: 10 :: r => existsb (fun j => andb (forallb (fun c => orb (c =? 32) (c =? 9)) (firstn j r)) (starts_with (skipn j r) CRLF)) (seq 1 (length r)) | _ => false end) (seq 0 (length (t ++ CRLF))) = false -> unblank t).
    { intros t H a w b X W. rewrite X in H. revert H. apply Bool.not_false_iff_true. apply existsb_exists. exists (length a). split.
      - apply in_seq. rewrite !app_length. cbn [length CRLF]. unfold bytes, byte in *. lia.
      - rewrite skipn_app, skipn_all, Nat.sub_diag. cbn [app skipn CRLF]. apply existsb_exists. exists (length w). destruct W as [W0 W]. split.
        + apply in_seq. rewrite !app_length. cbn [length]. destruct w; [congruence|]. cbn [length]. unfold bytes, byte in *. lia.
        + rewrite firstn_app, Nat.sub_diag, firstn_all, app_nil_r, skipn_app, skipn_all, Nat.sub_diag. apply andb_true_iff. split; [|destruct b; reflexivity]. apply forallb_forall. intros c Hc. unfold chars in W. rewrite Forall_forall in W. specialize (W c Hc). unfold rfc_WSP in W. apply orb_true_iff. rewrite !N.eqb_eq. exact W. }
    unfold strange. repeat (apply Forall_cons; [split; [split; [is_chars|is_lined]|apply NB; vm_compute; reflexivity]|]). apply Forall_nil.
  - constructor. unfold body_text. match goal with |- Forall _ ?l => let l' := eval vm_compute in l in change (Forall body_line l') end. apply Forall_cons; [|apply Forall_nil].
    split; [cbn [length]; lia|]. unfold chars, rfc_text. repeat (apply Forall_cons; [lia|]). apply Forall_nil.
  - eexists. compute_all.
Qed.
(* the two refusals *)
Example C74_example_errors : parse env_default (block_text [(bs "From", bs " a@b"); (bs "Date", bs " today")]) = Err (MissingHeader "Date") /\
  parse env_default (block_text [(bs "From", bs " a@b"); (bs "fROM", bs " c@d")]) = Err (DuplicateHeader "From") /\ repeated "From" [(bs "From", bs " a@b"); (bs "fROM", bs " c@d")].
Proof. split; [vm_compute; reflexivity|]. split; [vm_compute; reflexivity|]. exists [], (bs "From", bs " a@b"), [], (bs "fROM", bs " c@d"), []. repeat split. Qed.
(* with mime, an undecodable body is another reason; and headers that stop at folds must not be folded *)
Theorem C74_mime : forall E ls r, env_ok E -> f_mime E = true -> debug E = false -> Forall good_line ls -> Forall not_stopped ls -> (f_trace E = true -> untraced_start ls) -> r = [] \/ (exists b, r = CRLF ++ b) ->
  (exists e, parse E (block_text ls ++ r) = Ok e) \/ (exists n, mandatory_name n /\ parse E (block_text ls ++ r) = Err (MissingHeader n)) \/
  (exists n, repeated n ls /\ parse E (block_text ls ++ r) = Err (DuplicateHeader n)) \/
  (exists w x, parse E (block_text ls ++ r) = Err (Unknown w) /\ r <> [] /\ In x ls /\ same_nocase (fst x) (bs "Content-Transfer-Encoding")).
Proof. exact mime_lines. Qed.
Print Assumptions C74_mime.
Definition strange_mime : list line := [(bs "From", bs " a@b"); (bs "Content-Type", bs " ????"); (bs "Date", bs " 5 May 2023 18:58 +0000"); (bs "Subject", bs " =?x?" ++ CRLF ++ bs " ?="); (bs "Content-Transfer-Encoding", bs " x-none")].
Example C74_example_mime : Forall good_line strange_mime /\ Forall not_stopped strange_mime /\ (exists w, parse env_mime (block_text strange_mime ++ CRLF ++ bs "hello") = Err (Unknown w)) /\
  exists e, parse env_mime (block_text (firstn 4 strange_mime) ++ CRLF ++ bs "hello") = Ok e /\ unknown_fields e = [(bs "Content-Type", bs " ????")].
Proof.
  split; [|split; [|split]].
  - assert (NB : forall t, existsb (fun k => match skipn k (t ++ CRLF) with 13 :: 10 :: r => existsb (fun j => andb (forallb (fun c => orb (c =? 32) (c =? 9)) (firstn j r)) (starts_with (skipn j r) CRLF)) (seq 1 (length r)) | _ => false end) (seq 0 (length (t ++ CRLF))) = false -> unblank t).
    { intros t H a w b X W. rewrite X in H. revert H. apply Bool.not_false_iff_true. apply existsb_exists. exists (length a). split.
      - apply in_seq. rewrite !app_length. cbn [length CRLF]. unfold bytes, byte in *. lia.
      - rewrite skipn_app, skipn_all, Nat.sub_diag. cbn [app skipn CRLF]. apply existsb_exists. exists (length w). destruct W as [W0 W]. split.
        + apply in_seq. rewrite !app_length. cbn [length]. destruct w; [congruence|]. cbn [length]. unfold bytes, byte in *. lia.
        + rewrite firstn_app, Nat.sub_diag, firstn_all, app_nil_r, skipn_app, skipn_all, Nat.sub_diag. apply andb_true_iff. split; [|destruct b; reflexivity]. apply forallb_forall. intros c Hc. unfold chars in W. rewrite Forall_forall in W. specialize (W c Hc). unfold rfc_WSP in W. apply orb_true_iff. rewrite !N.eqb_eq. exact W. }
    unfold strange_mime. repeat (apply Forall_cons; [split; [split; [is_chars|is_lined]|apply NB; vm_compute; reflexivity]|]). apply Forall_nil.
  - assert (NC : forall l, ~ In 13 l -> forall a b, l <> a ++ CRLF ++ b) by (intros l H a b ->; apply H; apply in_or_app; right; now left).
    unfold strange_mime. repeat (apply Forall_cons; [intros K; first [apply NC; vm_compute; clear; intuition discriminate|exfalso; destruct K as (name & I & K); cbn [stopping In] in I; repeat (destruct I as [<-|I]; [vm_compute in K; discriminate K|]); exact I]|]). apply Forall_nil.
  - eexists. vm_compute. reflexivity.
  - eexists. compute_all.
Qed.
(* a folded header can stop the parser, with the error of a mail that is cut off *)
Theorem C74_folded_refuted : exists ls err, parse env_mime (block_text ls) = Err err /\ (forall n, err <> MissingHeader n /\ err <> DuplicateHeader n) /\ (forall w, err <> Unknown w) /\ exists e, parse env_default (block_text ls) = Ok e.
Proof. exists [(bs "From", bs " a@b"); (bs "Date", bs " 5 May 2023 18:58 +0000"); (bs "MIME-Version", bs " 1.0" ++ CRLF ++ bs " beta")]. eexists. split; [vm_compute; reflexivity|]. split; [split; discriminate|]. split; [discriminate|]. eexists. vm_compute. reflexivity. Qed.
Print Assumptions C74_folded_refuted.
(* with mime, there are other refusals *)
Theorem C74_mime_refuted : exists ls b err, parse env_mime (block_text ls ++ CRLF ++ b) = Err err /\ (forall n, err <> MissingHeader n /\ err <> DuplicateHeader n) /\ exists e, parse env_default (block_text ls ++ CRLF ++ b) = Ok e.
Proof. exists [(bs "From", bs " a@b"); (bs "Date", bs " 5 May 2023 18:58 +0000"); (bs "Content-Transfer-Encoding", bs " x-none")], (bs "hello"). eexists. split; [vm_compute; reflexivity|]. split; [split; discriminate|]. eexists. vm_compute. reflexivity. Qed.
Print Assumptions C74_mime_refuted.
(* the part of a multipart is refused only for its content: nothing is mandatory there, and headers can be repeated *)
Theorem C74_part : forall E ls r, env_ok E -> f_mime E = true -> debug E = false -> Forall good_line ls -> Forall not_stopped ls -> r = [] \/ (exists b, r = CRLF ++ b) ->
  (exists p, raw_entity E (block_text ls ++ r) = Ok p) \/
  (exists w x, raw_entity E (block_text ls ++ r) = Err (Unknown w) /\ In x ls /\ same_nocase (fst x) (bs "Content-Transfer-Encoding")).
Proof. exact part_lines. Qed.
Print Assumptions C74_part.
(* the lines of the example above, as a part: their unknown encoding refuses them; without it they are accepted, even twice *)
Example C74_example_part : (exists w, raw_entity env_mime (block_text strange_mime ++ CRLF ++ bs "hello") = Err (Unknown w)) /\
  exists p, raw_entity env_mime (block_text (firstn 4 strange_mime ++ firstn 4 strange_mime) ++ CRLF ++ bs "hello") = Ok p /\ e_value p = bs "hello".
Proof. split; eexists; compute_all. Qed.
(* hence a multipart of such parts is read with all of them, or refused for the content of one *)
Theorem C74_multipart : forall E b l lss epi text r, env_ok E -> f_mime E = true -> debug E = false -> ~ In 13 b -> rfc2046_body b l [] (Some epi) text -> Forall (fun y => fst y = []) l ->
  Forall2 (fun ls p => Forall good_line ls /\ Forall not_stopped ls /\ exists c, (c = [] \/ exists b, c = CRLF ++ b) /\ p = block_text ls ++ c) lss (map snd l) ->
  e_mime_type r = CMultipart -> map_get (e_parameters r) (bs "boundary") = Some b -> e_value r = text ->
  (exists es, entity E r = Ok (EMultipart (e_subtype r) es) /\ length es = length l) \/
  (exists w ls x, entity E r = Err (Unknown w) /\ In ls lss /\ In x ls /\ same_nocase (fst x) (bs "Content-Transfer-Encoding")).
Proof. exact multipart_lines. Qed.
Print Assumptions C74_multipart.
Definition strange_text (last : list line) : bytes := dash_boundary (bs "q") ++ [] ++ CRLF ++ block_text (firstn 4 strange_mime) ++ encapsulations (bs "q") [([], block_text last ++ CRLF ++ bs "b")] ++ line_delimiter (bs "q") ++ bs "--" ++ [] ++ CRLF ++ [].
Definition strange_parts (last : list line) : raw_entity_t :=
  {| e_mime_type := CMultipart; e_subtype := bs "mixed"; e_description := None; e_id := None; e_parameters := [(bs "boundary", bs "q")]; e_disposition := None; e_value := strange_text last; e_additional_headers := [] |}.
Example C74_example_multipart :
  rfc2046_body (bs "q") [([], block_text (firstn 4 strange_mime)); ([], block_text strange_mime ++ CRLF ++ bs "b")] [] (Some []) (strange_text strange_mime) /\
  Forall2 (fun ls p => Forall good_line ls /\ Forall not_stopped ls /\ exists c, (c = [] \/ exists b, c = CRLF ++ b) /\ p = block_text ls ++ c) [firstn 4 strange_mime; strange_mime] [block_text (firstn 4 strange_mime); block_text strange_mime ++ CRLF ++ bs "b"] /\
  (exists w, entity env_mime (strange_parts strange_mime) = Err (Unknown w)) /\
  exists es, entity env_mime (strange_parts (firstn 4 strange_mime)) = Ok (EMultipart (bs "mixed") es) /\ length es = 2%nat.
Proof.
  destruct C74_example_mime as (G & S & _). split; [|split; [|split]].
  - apply body_start.
    + constructor; [|constructor; [|constructor]]; (split; [constructor|apply not_occurs; vm_compute; reflexivity]).
    + apply body_end_epilogue; [constructor|]. apply not_occurs. vm_compute. reflexivity.
  - assert (F : forall (P : line -> Prop), Forall P strange_mime -> Forall P (firstn 4 strange_mime)) by (intros P H; rewrite <- (firstn_skipn 4 strange_mime) in H; now apply Forall_app in H).
    constructor; [split; [now apply F|split; [now apply F|exists []; split; [now left|now rewrite app_nil_r]]]|]. constructor; [|constructor]. split; [exact G|split; [exact S|]]. exists (CRLF ++ bs "b"). split; [right; eauto|reflexivity].
  - eexists. vm_compute. reflexivity.
  - eexists. split; vm_compute; reflexivity.
Qed.

(* Properties C51 and C34: how any multipart text is cut into parts. *)
From Verif Require Import Base Combinators MimeFields Entity Envs Rfc5322 MultipartSpec CutSpec MultipartProofs MultipartRound CutFacts.

(* ---- C51: the parts of any text ---- *)
Theorem C51_exact : forall E r x, e_mime_type r = CMultipart -> entity E r = Ok x <->
  exists b parts es, map_get (e_parameters r) (bs "boundary") = Some b /\ cut_parts b (e_value r) parts /\ Forall2 (fun p e => raw_entity E p = Ok e) parts es /\ x = EMultipart (e_subtype r) es.
Proof. exact entity_multipart_exact. Qed.
Print Assumptions C51_exact.
(* errors are those of the parts, or the closing delimiter is missing *)
Theorem C51_outcome : forall E b i (params : list (bytes * bytes)), map_get params (bs "boundary") = Some b ->
  (exists parts, cut_parts b i parts /\ parse_multipart E i params = raw_entities E parts) \/ (unclosed b i /\ parse_multipart E i params = Err (Unknown "closing boundary not found")).
Proof. exact multipart_outcome. Qed.
Print Assumptions C51_outcome.
Theorem C51_one_cut : forall b i parts parts', cut_parts b i parts -> cut_parts b i parts' -> parts = parts'.
Proof. exact cut_parts_fun. Qed.
Print Assumptions C51_one_cut.
Theorem C51_unclosed : forall b i parts, cut_parts b i parts -> ~ unclosed b i.
Proof. exact cut_not_unclosed. Qed.
Print Assumptions C51_unclosed.
(* a closing delimiter before a later delimiter is text of a part; a delimiter right after
   another one shares its CRLF, and gives an empty part *)
Definition two_closed : bytes :=
  bs "--b" ++ CRLF ++ CRLF ++ bs "x" ++ CRLF ++ bs "--b--" ++ CRLF ++ CRLF ++ bs "--b" ++ CRLF ++ bs "--b" ++ CRLF ++ CRLF ++ bs "y" ++ CRLF ++ bs "--b--" ++ CRLF ++ bs "end".
Example C51_example :
  cut_parts (bs "b") two_closed [CRLF ++ bs "x" ++ CRLF ++ bs "--b--" ++ CRLF; []; CRLF ++ bs "y"] /\
  unclosed (bs "b") (bs "--b" ++ CRLF ++ CRLF ++ bs "x" ++ CRLF ++ bs "--b--" ++ CRLF ++ CRLF ++ bs "--b" ++ CRLF) /\
  map_get [(bs "boundary", bs "b")] (bs "boundary") = Some (bs "b").
Proof.
  split; [|split].
  - apply (cut_parts_intro _ _ _ [[]; CRLF ++ bs "x" ++ CRLF ++ bs "--b--" ++ CRLF; []] (CRLF ++ bs "y" ++ CRLF ++ bs "--b--" ++ CRLF ++ bs "end") (CRLF ++ bs "y") (bs "end") []).
    + apply (sections_start (bs "b") (CRLF ++ bs "x" ++ CRLF ++ bs "--b--" ++ CRLF ++ CRLF ++ bs "--b" ++ CRLF ++ bs "--b" ++ CRLF ++ CRLF ++ bs "y" ++ CRLF ++ bs "--b--" ++ CRLF ++ bs "end")).
      apply sections_next with (r := bs "--b" ++ CRLF ++ CRLF ++ bs "y" ++ CRLF ++ bs "--b--" ++ CRLF ++ bs "end"); [intros s; discriminate|apply find_cut; vm_compute; reflexivity|].
      apply (sections_start (bs "b") (CRLF ++ bs "y" ++ CRLF ++ bs "--b--" ++ CRLF ++ bs "end")).
      apply sections_end; [intros s; discriminate|apply not_occurs; vm_compute; reflexivity].
    + apply find_cut; vm_compute; reflexivity.
    + reflexivity.
  - exists [[]; CRLF ++ bs "x" ++ CRLF ++ bs "--b--" ++ CRLF], []. split; [|apply not_occurs; vm_compute; reflexivity].
    apply (sections_start (bs "b") (CRLF ++ bs "x" ++ CRLF ++ bs "--b--" ++ CRLF ++ CRLF ++ bs "--b" ++ CRLF)).
    apply sections_next with (r := []); [intros s; discriminate|apply find_cut; vm_compute; reflexivity|].
    apply sections_end; [intros s; discriminate|apply not_occurs; vm_compute; reflexivity].
  - vm_compute. reflexivity.
Qed.

(* ---- C34: nothing after the closing delimiter matters ---- *)
(* whatever precedes it, if its CRLF is not that of another boundary line, for epilogues without
   delimiter; with one the claim is false (C34_epilogue_ignored_refuted, C34_ignored_iff) *)
Theorem C34_any_text : forall E b t epi epi' (params : list (bytes * bytes)), ~ In 13%N b -> map_get params (bs "boundary") = Some b ->
  (forall s, CRLF ++ t <> s ++ CRLF ++ dash_boundary b) -> ~ occurs (delimiter b) (CRLF ++ epi) -> ~ occurs (delimiter b) (CRLF ++ epi') ->
  parse_multipart E (t ++ closing_delimiter b ++ epi) params = parse_multipart E (t ++ closing_delimiter b ++ epi') params.
Proof. exact epilogue_any_text. Qed.
Print Assumptions C34_any_text.
Example C34_any_text_example :
  (forall s, CRLF ++ (bs "--b" ++ CRLF ++ bs "--b--") <> s ++ CRLF ++ dash_boundary (bs "b")) /\
  ~ occurs (delimiter (bs "b")) (CRLF ++ bs "--b--" ++ CRLF ++ bs "--bb") /\ ~ In 13%N (bs "b").
Proof.
  split; [|split].
  - intros s E. apply (f_equal (@rev byte)) in E. rewrite !rev_app_distr in E. vm_compute in E. discriminate.
  - apply not_occurs; vm_compute; reflexivity.
  - vm_compute. intuition discriminate.
Qed.

(* exactly: it is ignored if and only if it contains no delimiter; the condition on t says that the
   closing delimiter is one, and does not share its CRLF with a boundary line before it *)
Theorem C34_ignored_iff : forall E b t epi es (params : list (bytes * bytes)), ~ In 13%N b -> map_get params (bs "boundary") = Some b ->
  (forall s, CRLF ++ t <> s ++ CRLF ++ dash_boundary b) -> parse_multipart E (t ++ closing_delimiter b) params = Ok es ->
  parse_multipart E (t ++ closing_delimiter b ++ epi) params = Ok es <-> ~ occurs (delimiter b) (CRLF ++ epi).
Proof. exact epilogue_iff. Qed.
Print Assumptions C34_ignored_iff.
Example C34_ignored_example : ~ In 13%N (bs "b") /\
  (forall s, CRLF ++ (bs "--b" ++ CRLF ++ CRLF ++ bs "x") <> s ++ CRLF ++ dash_boundary (bs "b")) /\
  (exists es, parse_multipart env_mime ((bs "--b" ++ CRLF ++ CRLF ++ bs "x") ++ closing_delimiter (bs "b")) [(bs "boundary", bs "b")] = Ok es) /\
  occurs (delimiter (bs "b")) (CRLF ++ bs "--b" ++ CRLF) /\ ~ occurs (delimiter (bs "b")) (CRLF ++ bs "--b--" ++ CRLF ++ bs "end").
Proof.
  split; [vm_compute; intuition discriminate|]. split; [|split; [|split]].
  - intros s E. apply (f_equal (@rev byte)) in E. rewrite !rev_app_distr in E. vm_compute in E. discriminate.
  - eexists. vm_compute. reflexivity.
  - exists [], []. reflexivity.
  - apply not_occurs; vm_compute; reflexivity.
Qed.

(* C60: what a mail and an entity cost with mime. The m_ functions of TimedMime.v are those of the code, counting elementary operations. *)
From Verif Require Import Base Utf8 Combinators MimeFields Entity Email Envs EnvOk Timed TimedCodec TimedCodecLow TimedMime TimedMimeMail TimedMimeLow.
Local Open Scope nat_scope.

(* one constant for all builds with mime and all texts on which the parser does not panic (C01, C03), accepted or not: the counting
   parser returns the same result, and its work is at most the cube of the length. The external decoder is assumed to return at
   most four bytes for each byte. *)
Theorem C60_cubic : exists K, forall E d, env_ok E -> (forall c v, length (textcode E c v) <= 4 * length v) -> f_mime E = true -> (forall c, parse E d <> Crash c) ->
  fst (m_parse E d) = parse E d /\ snd (m_parse E d) <= K * (S (length d) * (S (length d) * S (length d))).
Proof. exact mail_work. Qed.
Print Assumptions C60_cubic.
(* and no multiple of the square is enough, even for accepted mails: every other address of a From header is first tried as a
   display name that runs to the end of the header, where a long encoded word is decoded again *)
Theorem C60_quadratic_refuted : forall K, exists d m, parse env_mime d = Ok m /\ K * (S (length d) * S (length d)) < snd (m_parse env_mime d).
Proof. exact mail_beyond. Qed.
Print Assumptions C60_quadratic_refuted.
(* one part, with its headers and the decoding of its body: at most the square *)
Theorem C60_part : exists K, forall E i, env_ok E -> (forall c v, length (textcode E c v) <= 4 * length v) -> (forall c, raw_entity E i <> Crash c) ->
  fst (m_raw_entity E i) = raw_entity E i /\ snd (m_raw_entity E i) <= K * (S (length i) * S (length i)).
Proof. exact raw_entity_work. Qed.
Print Assumptions C60_part.
Theorem C60_part_linear_refuted : forall K, exists i r, raw_entity env_mime i = Ok r /\ K * S (length i) < snd (m_raw_entity env_mime i).
Proof. exact raw_entity_beyond. Qed.
Print Assumptions C60_part_linear_refuted.
(* one level of RawEntity::parse, with all its parts: at most the square of the body and the parameters *)
Theorem C60_entity : exists K, forall E r, env_ok E -> (forall c v, length (textcode E c v) <= 4 * length v) -> (forall c, entity E r <> Crash c) ->
  fst (m_entity E r) = entity E r /\
  snd (m_entity E r) <= K * (S (length (e_value r) + list_sum (map (fun p => length (snd p)) (e_parameters r))) * S (length (e_value r) + list_sum (map (fun p => length (snd p)) (e_parameters r)))).
Proof. exact entity_work. Qed.
Print Assumptions C60_entity.
Theorem C60_entity_linear_refuted : forall E K, exists r, e_mime_type r = CMultipart /\
  K * S (length (e_value r) + list_sum (map (fun p => length (snd p)) (e_parameters r))) < snd (m_entity E r).
Proof. exact entity_beyond. Qed.
Print Assumptions C60_entity_linear_refuted.

(* the mails of C60_quadratic_refuted: the work grows faster than the square of the length *)
Example C60_example : env_ok env_mime /\ (forall c v, length (textcode env_mime c v) <= 4 * length v) /\ f_mime env_mime = true /\
  (exists m, parse env_mime (cubic_mail 10 10) = Ok m) /\ (exists m, parse env_mime (cubic_mail 20 20) = Ok m) /\
  map (fun n => length (cubic_mail n n)) [10; 20] = [331; 571] /\
  map (fun n => N.of_nat (snd (m_parse env_mime (cubic_mail n n)))) [10; 20] = [21062; 78602]%N /\
  (exists r, raw_entity env_mime (qp_part 20) = Ok r /\ e_value r = repeat 65%N 20) /\
  (exists err, parse env_mime (bs "From: a@b" ++ cubic_mail 10 10) = Err err).
Proof.
  split; [exact env_mime_ok|]. split; [exact (fun _ => latin1_size)|]. split; [reflexivity|]. do 2 (split; [eexists; vm_compute; reflexivity|]). split; [reflexivity|]. split; [vm_compute; reflexivity|].
  split; [eexists; split; vm_compute; reflexivity|]. eexists. vm_compute. reflexivity.
Qed.

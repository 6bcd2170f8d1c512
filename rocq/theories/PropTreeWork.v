(* Property C70: the work of reading a mail with all its parts. *)
From Verif Require Import Base Time Address MimeFields Fields Message Entity Email Envs EnvOk SizeSpec TimedMime TimedMimeMail TimedMimeLow GrowSpec UnencodedSpec UnencodedFacts TreeWorkSpec TreeWorkFacts PropUnencoded.
Local Open Scope nat_scope.

(* ---- C70 ---- *)
(* a mail whose multiparts are not encoded: reading it, its entity and all parts of all levels is cubic *)
Theorem C70_mail : exists K, forall E D e r n, env_ok E -> f_mime E = true -> expands 4 E -> debug E = false ->
  parse E D = Ok e -> mime_entity e = Some r -> kept D r -> unencoded E r ->
  snd (m_parse E D) + tree_work E n r <= K * (S (length D) * (S (length D) * S (length D))).
Proof. exact mail_tree_cubic. Qed.
Print Assumptions C70_mail.
(* the same from any entity *)
Theorem C70_tree : exists K, forall E r n, env_ok E -> f_mime E = true -> expands 4 E -> debug E = false -> unencoded E r ->
  tree_work E n r <= K * (weight r * weight r + length (e_value r) * (length (e_value r) * length (e_value r))).
Proof. exact tree_cubic. Qed.
Print Assumptions C70_tree.
(* all parts together have a quadratic number of bytes, their squares a cubic one *)
Theorem C70_squares : forall E, env_ok E -> f_mime E = true -> expands 4 E -> forall n r, unencoded E r ->
  list_sum (map (fun x => weight x * weight x) (below E n r)) <= 12 * (length (e_value r) * (length (e_value r) * length (e_value r))).
Proof. exact weights. Qed.
Print Assumptions C70_squares.

(* the mail of C68: a multipart in a multipart *)
Example C70_example : env_ok env_mime /\ f_mime env_mime = true /\ expands 4 env_mime /\ debug env_mime = false /\
  exists e r, parse env_mime tree_mail = Ok e /\ mime_entity e = Some r /\ kept tree_mail r /\ unencoded env_mime r /\ length (below env_mime 9 r) = 3 /\
    map weight (below env_mime 9 r) = [75; 15; 10].
Proof.
  split; [exact env_mime_ok|]. split; [reflexivity|]. split; [intros c v; exact (latin1_size v)|]. split; [reflexivity|].
  destruct C68_example as (_ & _ & e & r & H & R & K & U & _ & _). exists e, r. split; [exact H|]. split; [exact R|]. split; [exact K|]. split; [exact U|].
  vm_compute in H. injection H as <-. vm_compute in R. injection R as <-. split; vm_compute; reflexivity.
Qed.

(* Property C65: how large the tree of the parts of a mail can be. *)
From Verif Require Import Base Time Address MimeFields Fields Message Entity Email Envs EnvOk CodecSpec EmailSpec TreeSpec GrowSpec RegularFacts GrowFacts GrowLow.
Local Open Scope nat_scope.
Ltac compute_all := lazymatch goal with |- _ /\ _ => split; compute_all | _ => vm_compute; reflexivity end.

(* ---- C65 ---- *)
(* parsing all the parts of a mail, their parts and so on comes to an end, at depth length D / 8 at the latest;
   n levels down there are at most 3^(n+1) times the bytes of the mail *)
Theorem C65_mail : forall E, env_ok E -> forall D e r, f_mime E = true -> parse E D = Ok e -> mime_entity e = Some r -> forall n,
  value_bytes (level E n r) <= 3 ^ S n * length D /\ 4 * length (level E (S n) r) <= 3 ^ S n * length D /\ (length D < 8 * n -> level E n r = []).
Proof. exact mail_levels. Qed.
Print Assumptions C65_mail.
(* the same below any entity *)
Theorem C65_bytes : forall E, env_ok E -> forall n r, value_bytes (level E n r) <= 3 ^ n * length (e_value r).
Proof. exact level_bound. Qed.
Print Assumptions C65_bytes.
Theorem C65_count : forall E, env_ok E -> forall n r, 4 * length (level E (S n) r) <= 3 ^ n * length (e_value r).
Proof. exact level_count. Qed.
Print Assumptions C65_count.
Theorem C65_depth : forall E, env_ok E -> forall n r, level E n r <> [] -> 8 * n <= ascii_bytes (e_value r).
Proof. exact level_end. Qed.
Print Assumptions C65_depth.
(* no polynomial bounds the tree: there are mails with 3^d bytes in a leaf whose length only grows with
   the square of d, in every build with mime *)
Theorem C65_exponential : forall E, env_ok E -> f_mime E = true -> exists K, forall d, exists D e r t,
  parse E D = Ok e /\ length D <= K * (S d * S d) /\ mime_entity e = Some r /\ shows E r t /\ 3 ^ d <= leaf_bytes t.
Proof. exact short_mail_large_tree. Qed.
Print Assumptions C65_exponential.

(* the mail of C65_exponential for d = 3 *)
Definition grow_mail : bytes := bs "From: a@b" ++ CRLF ++ date_line ++ m_type ++ m_encoding ++ CRLF ++ hide (wrap (nest 3 REPLACEMENT)).
Example C65_example : env_ok env_mime /\ f_mime env_mime = true /\ length grow_mail = 694 /\
  exists e r, parse env_mime grow_mail = Ok e /\ mime_entity e = Some r /\
    map (fun n => map (fun x => length (e_value x)) (level env_mime n r)) [0; 1; 2; 3; 4; 5] = [[487]; [339]; [249]; [289]; [243]; []] /\
    map (fun x => e_value x) (level env_mime 4 r) = [concat (repeat REPLACEMENT 81)].
Proof.
  split; [exact env_mime_ok|]. split; [reflexivity|]. split; [vm_compute; reflexivity|].
  let z := eval vm_compute in (parse env_mime grow_mail) in match z with Ok ?z => let r := eval vm_compute in (mime_entity z) in match r with Some ?r => exists z, r end end. compute_all.
Qed.

(* Property C54: the work of the parser grows linearly with the text, without mime. *)
From Coq Require Import Lia.
From Verif Require Import Base Utf8 Time Address MimeFields Fields Message Email Envs EnvOk Timed TimedPays.
Local Open Scope nat_scope.

(* ---- C54 ---- *)
(* one constant for all builds and all texts, accepted or not; t_parse is the parser with a count
   of its work (Timed.v says what is counted) and returns the same results *)
Theorem C54_linear : exists K, forall E d, env_ok E -> f_mime E = false -> fst (t_parse E d) = parse E d /\ snd (t_parse E d) <= K * S (length d).
Proof. exact work_linear. Qed.
Print Assumptions C54_linear.
(* the count leaves nothing out: on an accepted mail every byte is counted at least once *)
Theorem C54_counts : forall E d m, env_ok E -> f_mime E = false -> parse E d = Ok m -> length d <= snd (t_parse E d).
Proof. exact work_counts. Qed.
Print Assumptions C54_counts.
(* a mail with nested comments, and a To header of open comments that is no address list *)
Definition deep (n : nat) : bytes :=
  bs "From: a@b.c " ++ concat (repeat (bs "((x)") n) ++ concat (repeat (bs ")") n) ++ CRLF ++ bs "To: " ++ concat (repeat (bs " (") (2 * n)) ++ CRLF ++ bs "Date: 5 May 2003 18:58:34 +0000" ++ CRLF ++ CRLF ++ bs "text".
Example C54_example : env_ok env_default /\ f_mime env_default = false /\
  (exists m, parse env_default (deep 10) = Ok m) /\ (exists m, parse env_default (deep 20) = Ok m) /\ (exists m, parse env_default (deep 30) = Ok m) /\
  (exists err, parse env_default (bs "From: " ++ deep 10) = Err err) /\
  map (fun n => length (deep n)) [10; 20; 30] = [149; 239; 329] /\
  map (fun n => N.of_nat (snd (t_parse env_default (deep n)))) [10; 20; 30] = [5203; 9443; 13683]%N.
Proof.
  split; [exact env_default_ok|]. split; [reflexivity|]. do 3 (split; [eexists; vm_compute; reflexivity|]).
  split; [eexists; vm_compute; reflexivity|]. split; [reflexivity|]. vm_compute. reflexivity.
Qed.

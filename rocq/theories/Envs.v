(* Well-formed build configurations, and concrete ones for examples and tests. *)
From Coq Require Import Permutation.
From Verif Require Import Base Utf8.

(* What is assumed of the externals: textcode returns a Rust String (valid UTF-8 of
   bytes), a HashMap iteration visits every key exactly once; and what Cargo/rustc
   enforce: unrecognized-headers implies mime (Cargo.toml:35), `sender` without `from`
   does not compile (email.rs:315 uses the variable `from`). *)
Record env_ok (E : env) : Prop := {
  ok_textcode : forall c b, utf8_valid (textcode E c b) = true;
  ok_textcode_wf : forall c b, wf_bytes (textcode E c b);
  ok_hash : forall l, Permutation (hash_order E l) l;
  ok_unrecognized : f_unrecognized_headers E = true -> f_mime E = true;
  ok_sender : f_sender E = true -> f_from E = true
}.

(* ISO-8859-1 to UTF-8, used as a concrete textcode in examples *)
Fixpoint latin1 (l : bytes) : bytes :=
  match l with
  | [] => []
  | b :: r => (if (b <? 128)%N then [b] else [192 + b / 64; 128 + b mod 64]%N) ++ latin1 r
  end.

Definition latin1_total (l : bytes) : bytes := latin1 (map (fun b => b mod 256)%N l).

(* every header feature, mime and friends as given *)
Definition mk_env (mime unrec compat dbg : bool) : env :=
  {| f_from := true; f_sender := true; f_subject := true; f_date := true; f_to := true; f_cc := true;
     f_bcc := true; f_message_id := true; f_in_reply_to := true; f_references := true; f_reply_to := true;
     f_comments := true; f_keywords := true; f_trace := true;
     f_mime := mime; f_unrecognized_headers := unrec; f_compatibility_fixes := compat;
     debug := dbg; textcode := fun _ => latin1_total; hash_order := fun l => l |}.

(* the default feature set *)
Definition env_default : env := mk_env false false false false.
(* default features plus mime and content-disposition *)
Definition env_mime : env := mk_env true false false false.
(* all features, checked build *)
Definition env_all_debug : env := mk_env true true true true.
(* no feature at all *)
Definition env_none : env :=
  {| f_from := false; f_sender := false; f_subject := false; f_date := false; f_to := false; f_cc := false;
     f_bcc := false; f_message_id := false; f_in_reply_to := false; f_references := false; f_reply_to := false;
     f_comments := false; f_keywords := false; f_trace := false;
     f_mime := false; f_unrecognized_headers := false; f_compatibility_fixes := false;
     debug := false; textcode := fun _ => latin1_total; hash_order := fun l => l |}.

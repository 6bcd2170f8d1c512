(* Property C26: accepted addresses and identifiers conform to RFC 5322. *)
From Verif Require Import Base Utf8 Combinators Address Fields Envs Rfc5322 Rfc2047 RfcFields SoundAddr GrammarFacts.
Local Open Scope N_scope.
Ltac compute_all := lazymatch goal with |- _ /\ _ => split; compute_all | _ => vm_compute; reflexivity end.

(* [encoded E] is the relation of RFC 2047 encoded words if mime is enabled, else empty. *)
Theorem C26_mailbox : forall E i r m, mailbox E i = Ok (r, m) -> exists c, i = c ++ r /\ rfc_mailbox (f_compatibility_fixes E) (encoded E) c m.
Proof. exact mailbox_conforms. Qed.
Print Assumptions C26_mailbox.
Theorem C26_mailbox_list : forall E i r m, mailbox_list E i = Ok (r, m) -> exists c, i = c ++ r /\ rfc_mailbox_list (f_compatibility_fixes E) (encoded E) c m.
Proof. exact mailbox_list_conforms. Qed.
Print Assumptions C26_mailbox_list.
Theorem C26_group : forall E i r m, group E i = Ok (r, m) -> exists c, i = c ++ r /\ rfc_group (f_compatibility_fixes E) (encoded E) c m.
Proof. exact group_conforms. Qed.
Print Assumptions C26_group.
Theorem C26_address_list : forall E i r m, address_list E i = Ok (r, m) -> exists c, i = c ++ r /\ rfc_address_list (f_compatibility_fixes E) (encoded E) c m.
Proof. exact address_list_conforms. Qed.
Print Assumptions C26_address_list.
Theorem C26_message_id : forall E i r m, message_id E i = Ok (r, m) -> exists c, i = c ++ r /\ rfc_msg_id (f_compatibility_fixes E) c m.
Proof. exact message_id_conforms. Qed.
Print Assumptions C26_message_id.
Theorem C26_path : forall E i r m, return_path_value E i = Ok (r, m) -> exists c, i = c ++ r /\ rfc_path (f_compatibility_fixes E) c m.
Proof. exact path_conforms. Qed.
Print Assumptions C26_path.
Example C26_example :
  mailbox env_default (bs "(c) ""J. \""D"" Doe<""j d""@[1.2 .3]>,") = Ok (bs ",",
    {| m_name := Some [bs "J. ""D"; bs "Doe"]; m_address := {| a_local_part := bs "j d"; a_domain := bs "1.2.3" |} |})
  /\ group env_default (bs "A:a@b,<c@d>;") = Ok ([], ([bs "A"],
      [{| m_name := None; m_address := {| a_local_part := bs "a"; a_domain := bs "b" |} |};
       {| m_name := None; m_address := {| a_local_part := bs "c"; a_domain := bs "d" |} |}]))
  /\ message_id env_default (bs " <a.b@[c]>") = Ok ([], (bs "a.b", bs "c"))
  /\ return_path_value env_default (bs "<>") = Ok ([], None).
Proof. compute_all. Qed.

(* C42: switching header features off only turns headers into unknown ones. *)
From Coq Require Import Lia ZifyBool ZifyNat ZifyN Permutation.
From Verif Require Import Base Utf8 CharSets Combinators Whitespace Common Time Address Percent MimeFields Fields Message Entity Email Envs
  Rfc5322 Rfc2047 Post CodecSpec RfcFields SoundBase TagNoCase SoundFields EmailSpec SoundMessage EmailProofs MessageFacts Steps Complete CompleteFields Forward ForwardText ForwardMime
  ForwardFields ForwardMessage HeaderFacts Local LocalFacts OrderFacts SameFacts LinedFacts LessSpec.
Local Open Scope N_scope.

(* ---- the choice of the parser by the name of the header ---- *)
Definition entry : Type := string * (env -> bool) * parser field.
Definition entries (E : env) : list entry :=
  [("Date", f_date, pmap FDate (field_date E)); ("From", f_from, pmap FFrom (field_from E)); ("Sender", f_sender, pmap FSender (field_sender E));
   ("Reply-To", f_reply_to, pmap FReplyTo (field_reply_to E)); ("To", f_to, pmap FTo (field_to E)); ("Cc", f_cc, pmap FCc (field_cc E)); ("Bcc", f_bcc, pmap FBcc (field_bcc E));
   ("Message-ID", f_message_id, pmap FMessageId (field_message_id E)); ("In-Reply-To", f_in_reply_to, pmap FInReplyTo (field_in_reply_to E));
   ("References", f_references, pmap FReferences (field_references E)); ("Subject", f_subject, pmap FSubject (field_subject E));
   ("Comments", f_comments, pmap FComments (field_comments E)); ("MIME-Version", f_mime, pmap (fun '(a, b) => FMimeVersion a b) (mime_version E));
   ("Content-Type", f_mime, pmap (fun '(t, s, p) => FContentType t s p) (content_type E)); ("Content-Transfer-Encoding", f_mime, pmap FContentTransferEncoding (content_transfer_encoding E));
   ("Content-ID", f_mime, pmap FContentId (content_id E)); ("Content-Description", f_mime, pmap FContentDescription (content_description E));
   ("Content-Disposition", f_mime, pmap FContentDisposition (content_disposition E)); ("Keywords", f_keywords, pmap FKeywords (field_keywords E))]%string.
Definition on (F : env) (l : list entry) : list (parser field) := concat (map (fun x => cfg (snd (fst x) F) (snd x)) l).
Definition ename (x : entry) : string := fst (fst x).
Definition unk (E : env) : parser field := pmap (fun '(n, v) => FUnknown n v) (unknown E).
Lemma any_field_on : forall E i, any_field E i = match_parsers (on E (entries E) ++ [unk E]) i.
Proof. intros E i. unfold any_field, field_parsers, on, entries, unk. cbn [map concat fst snd]. rewrite app_nil_r. now rewrite <- !app_assoc. Qed.
Lemma on_none : forall F l k i, (forall x, In x l -> exists e, snd x i = Err e) -> match_parsers (on F l ++ k) i = match_parsers k i.
Proof.
  intros F l k i. induction l as [|x l IH]; intros H; [reflexivity|]. unfold on. cbn [map concat]. rewrite <- app_assoc. rewrite cfg_skip; [apply IH; intros; apply H; now right|]. intros _. apply H. now left.
Qed.
Lemma on_select : forall F l k i x, In x l -> NoDup (map ename l) -> (forall y, In y l -> ename y <> ename x -> exists e, snd y i = Err e) ->
  match_parsers (on F l ++ k) i = if snd (fst x) F then match snd x i with Err _ => match_parsers k i | z => z end else match_parsers k i.
Proof.
  intros F l k i x. induction l as [|y l IH]; intros Hin HN H; [destruct Hin|]. cbn [map] in HN. inversion HN as [|? ? Hy HN']; subst. unfold on. cbn [map concat]. rewrite <- app_assoc. fold (on F l). destruct Hin as [->|Hin].
  - assert (R : match_parsers (on F l ++ k) i = match_parsers k i). { apply on_none. intros z Hz. apply H; [now right|]. intros X. apply Hy. rewrite <- X. now apply in_map. }
    destruct (snd (fst x) F); cbn [cfg app match_parsers]; [|exact R]. destruct (snd x i) as [[r a]|e|kk]; cbn [attempt]; auto.
  - rewrite cfg_skip; [apply IH; auto; intros; apply H; auto; now right|]. intros _. apply H; [now left|]. intros X. apply Hy. rewrite X. now apply in_map.
Qed.
Definition names : list string := map ename (entries {| f_from := false; f_sender := false; f_subject := false; f_date := false; f_to := false; f_cc := false; f_bcc := false; f_message_id := false;
  f_in_reply_to := false; f_references := false; f_reply_to := false; f_comments := false; f_keywords := false; f_trace := false; f_mime := false; f_unrecognized_headers := false;
  f_compatibility_fixes := false; debug := false; textcode := fun _ x => x; hash_order := fun x => x |}).
Lemma entries_names : forall E, map ename (entries E) = names. Proof. reflexivity. Qed.
Definition apart (a b : string) : bool := String.eqb a b || negb (bytes_eqb (map fold_case (bs a)) (map fold_case (bs b))).
Lemma names_apart : forall a b, In a names -> In b names -> a <> b -> bytes_eqb (map fold_case (bs a)) (map fold_case (bs b)) = false.
Proof.
  intros a b Ha Hb N. assert (T : forallb (fun a => forallb (apart a) names) names = true) by (vm_compute; reflexivity). rewrite forallb_forall in T. specialize (T a Ha). rewrite forallb_forall in T. specialize (T b Hb).
  unfold apart in T. apply orb_true_iff in T as [T|T]; [apply String.eqb_eq in T; congruence|]. now apply negb_true_iff in T.
Qed.
Lemma names_nodup : NoDup names.
Proof. unfold names. cbn [map entries ename fst]. repeat (constructor; [cbn; intuition discriminate|]). constructor. Qed.
Lemma names_colon : forall a, In a names -> ~ In 58 (bs a).
Proof. intros a H. assert (T : forallb (fun a => negb (existsb (N.eqb 58) (bs a))) names = true) by (vm_compute; reflexivity). rewrite forallb_forall in T. specialize (T a H). apply negb_true_iff in T. intros X. enough (existsb (N.eqb 58) (bs a) = true) by congruence. apply existsb_exists. exists 58. split; [exact X|reflexivity]. Qed.
Lemma entry_without : forall E x i, In x (entries E) -> without (ename x) i -> exists e, snd x i = Err e.
Proof. intros E x i H W. unfold entries in H. cbn [In] in H. repeat (destruct H as [<-|H]; [cbn [snd ename fst] in *; apply pmap_err; field_none; exact W|]). destruct H. Qed.
Lemma with_name : forall (name : string) i, ~ without name i -> exists n r, i = n ++ [58] ++ r /\ same_nocase n (bs name).
Proof.
  intros name i H. unfold without in H. destruct (starts_nocase i (bs name ++ [58])) eqn:S; [|congruence]. apply starts_nocase_spec in S as (m & t & -> & M). apply name_colon in M as (k & -> & Hk).
  exists k, t. now rewrite <- app_assoc.
Qed.
Lemma without_dec : forall name i, without name i \/ ~ without name i.
Proof. intros name i. unfold without. destruct (starts_nocase i (bs name ++ [58])); [right; discriminate|now left]. Qed.
Lemma entries_apart : forall E x y i, In x (entries E) -> In y (entries E) -> ename y <> ename x -> ~ without (ename x) i -> without (ename y) i.
Proof.
  intros E x y i Hx Hy N W. apply (in_map ename) in Hx, Hy. rewrite entries_names in Hx, Hy. apply with_name in W as (n & r & -> & Hn). eapply header_other; eauto using names_colon. apply names_apart; auto.
Qed.
(* either no entry is concerned, or exactly one *)
Lemma entries_choice : forall E i, (forall x, In x (entries E) -> exists e, snd x i = Err e) \/
  exists x, In x (entries E) /\ forall y, In y (entries E) -> ename y <> ename x -> exists e, snd y i = Err e.
Proof.
  intros E i. assert (D : (forall x, In x (entries E) -> without (ename x) i) \/ exists x, In x (entries E) /\ ~ without (ename x) i).
  { generalize (entries E). intros l. induction l as [|x l IH]; [left; intros x []|]. destruct (without_dec (ename x) i) as [W|W]; [|right; exists x; split; [now left|exact W]].
    destruct IH as [IH|(y & Hy & IH)]; [left|right; exists y; split; [now right|exact IH]]. intros y [<-|Hy]; auto. }
  destruct D as [D|(x & Hx & D)]; [left; intros x Hx; exact (entry_without E x i Hx (D x Hx))|]. right. exists x. split; [exact Hx|]. intros y Hy N. apply (entry_without E); auto. exact (entries_apart E x y i Hx Hy N D).
Qed.
Lemma any_field_choice : forall E i, (forall F, match_parsers (on F (entries E) ++ [unk E]) i = match_parsers [unk E] i) \/
  exists x, In x (entries E) /\ forall F, match_parsers (on F (entries E) ++ [unk E]) i = if snd (fst x) F then match snd x i with Err _ => match_parsers [unk E] i | z => z end else match_parsers [unk E] i.
Proof.
  intros E i. destruct (entries_choice E i) as [H|(x & Hx & H)].
  - left. intros F. now apply on_none.
  - right. exists x. split; [exact Hx|]. intros F. apply on_select; auto. rewrite entries_names. exact names_nodup.
Qed.
Lemma pmap_inv : forall A B (g : A -> B) (p : parser A) i r b, pmap g p i = Ok (r, b) -> exists a, b = g a.
Proof. intros A B g p i r b. unfold pmap. destruct (p i) as [[r' a]|e|k]; cbn; try discriminate. intros H. inversion H. eauto. Qed.
Lemma entry_feature : forall E x i r f, In x (entries E) -> snd x i = Ok (r, f) -> is_trace f = None /\ forall F, feature F f = snd (fst x) F.
Proof.
  intros E x i r f H P. unfold entries in H. cbn [In] in H.
  repeat (destruct H as [<-|H]; [cbn [snd fst] in *; apply pmap_inv in P as [a ->]; first [now split|destruct a as [? ?]; now split|destruct a as [[? ?] ?]; now split]|]). destruct H.
Qed.
Definition same_entry (x y : entry) : Prop := fst x = fst y /\ same_parser (snd x) (snd y).
Lemma less_parsers : forall E E', fewer E' E -> Forall2 same_entry (entries E') (entries E) /\ same_parser (unk E') (unk E) /\ same_parser (trace_block E') (trace_block E).
Proof.
  intros E E' [_ _ _ _ _ _ _ _ _ _ _ _ _ _ H1 H2 H3 H4 H5 H6]. destruct E, E'. cbn in H1, H2, H3, H4, H5, H6. subst. split; [|split].
  - unfold entries.
    constructor; [split; cbn [fst snd]; [reflexivity|]; refine (pmap_same _ _ _ _ _ (field_date_less _ _ _ _ _ _ _ _ _ _ _ _ _ _ _ _ _ _ _ _ _ _ _ _ _ _ _ _ _ _ _ _ _ _))|].
    constructor; [split; cbn [fst snd]; [reflexivity|]; refine (pmap_same _ _ _ _ _ (field_from_less _ _ _ _ _ _ _ _ _ _ _ _ _ _ _ _ _ _ _ _ _ _ _ _ _ _ _ _ _ _ _ _ _ _))|].
    constructor; [split; cbn [fst snd]; [reflexivity|]; refine (pmap_same _ _ _ _ _ (field_sender_less _ _ _ _ _ _ _ _ _ _ _ _ _ _ _ _ _ _ _ _ _ _ _ _ _ _ _ _ _ _ _ _ _ _))|].
    constructor; [split; cbn [fst snd]; [reflexivity|]; refine (pmap_same _ _ _ _ _ (field_reply_to_less _ _ _ _ _ _ _ _ _ _ _ _ _ _ _ _ _ _ _ _ _ _ _ _ _ _ _ _ _ _ _ _ _ _))|].
    constructor; [split; cbn [fst snd]; [reflexivity|]; refine (pmap_same _ _ _ _ _ (field_to_less _ _ _ _ _ _ _ _ _ _ _ _ _ _ _ _ _ _ _ _ _ _ _ _ _ _ _ _ _ _ _ _ _ _))|].
    constructor; [split; cbn [fst snd]; [reflexivity|]; refine (pmap_same _ _ _ _ _ (field_cc_less _ _ _ _ _ _ _ _ _ _ _ _ _ _ _ _ _ _ _ _ _ _ _ _ _ _ _ _ _ _ _ _ _ _))|].
    constructor; [split; cbn [fst snd]; [reflexivity|]; refine (pmap_same _ _ _ _ _ (field_bcc_less _ _ _ _ _ _ _ _ _ _ _ _ _ _ _ _ _ _ _ _ _ _ _ _ _ _ _ _ _ _ _ _ _ _))|].
    constructor; [split; cbn [fst snd]; [reflexivity|]; refine (pmap_same _ _ _ _ _ (field_message_id_less _ _ _ _ _ _ _ _ _ _ _ _ _ _ _ _ _ _ _ _ _ _ _ _ _ _ _ _ _ _ _ _ _ _))|].
    constructor; [split; cbn [fst snd]; [reflexivity|]; refine (pmap_same _ _ _ _ _ (field_in_reply_to_less _ _ _ _ _ _ _ _ _ _ _ _ _ _ _ _ _ _ _ _ _ _ _ _ _ _ _ _ _ _ _ _ _ _))|].
    constructor; [split; cbn [fst snd]; [reflexivity|]; refine (pmap_same _ _ _ _ _ (field_references_less _ _ _ _ _ _ _ _ _ _ _ _ _ _ _ _ _ _ _ _ _ _ _ _ _ _ _ _ _ _ _ _ _ _))|].
    constructor; [split; cbn [fst snd]; [reflexivity|]; refine (pmap_same _ _ _ _ _ (field_subject_less _ _ _ _ _ _ _ _ _ _ _ _ _ _ _ _ _ _ _ _ _ _ _ _ _ _ _ _ _ _ _ _ _ _))|].
    constructor; [split; cbn [fst snd]; [reflexivity|]; refine (pmap_same _ _ _ _ _ (field_comments_less _ _ _ _ _ _ _ _ _ _ _ _ _ _ _ _ _ _ _ _ _ _ _ _ _ _ _ _ _ _ _ _ _ _))|].
    constructor; [split; cbn [fst snd]; [reflexivity|]; refine (pmap_same _ _ _ _ _ (mime_version_less _ _ _ _ _ _ _ _ _ _ _ _ _ _ _ _ _ _ _ _ _ _ _ _ _ _ _ _ _ _ _ _ _ _))|].
    constructor; [split; cbn [fst snd]; [reflexivity|]; refine (pmap_same _ _ _ _ _ (content_type_less _ _ _ _ _ _ _ _ _ _ _ _ _ _ _ _ _ _ _ _ _ _ _ _ _ _ _ _ _ _ _ _ _ _))|].
    constructor; [split; cbn [fst snd]; [reflexivity|]; refine (pmap_same _ _ _ _ _ (content_transfer_encoding_less _ _ _ _ _ _ _ _ _ _ _ _ _ _ _ _ _ _ _ _ _ _ _ _ _ _ _ _ _ _ _ _ _ _))|].
    constructor; [split; cbn [fst snd]; [reflexivity|]; refine (pmap_same _ _ _ _ _ (content_id_less _ _ _ _ _ _ _ _ _ _ _ _ _ _ _ _ _ _ _ _ _ _ _ _ _ _ _ _ _ _ _ _ _ _))|].
    constructor; [split; cbn [fst snd]; [reflexivity|]; refine (pmap_same _ _ _ _ _ (description_less _ _ _ _ _ _ _ _ _ _ _ _ _ _ _ _ _ _ _ _ _ _ _ _ _ _ _ _ _ _ _ _ _ _))|].
    constructor; [split; cbn [fst snd]; [reflexivity|]; refine (pmap_same _ _ _ _ _ (disposition_less _ _ _ _ _ _ _ _ _ _ _ _ _ _ _ _ _ _ _ _ _ _ _ _ _ _ _ _ _ _ _ _ _ _))|].
    constructor; [split; cbn [fst snd]; [reflexivity|]; refine (pmap_same _ _ _ _ _ (field_keywords_less _ _ _ _ _ _ _ _ _ _ _ _ _ _ _ _ _ _ _ _ _ _ _ _ _ _ _ _ _ _ _ _ _ _))|].
    constructor.
  - refine (pmap_same _ _ _ _ _ (unknown_less _ _ _ _ _ _ _ _ _ _ _ _ _ _ _ _ _ _ _ _ _ _ _ _ _ _ _ _ _ _ _ _ _ _)).
  - refine (block_less _ _ _ _ _ _ _ _ _ _ _ _ _ _ _ _ _ _ _ _ _ _ _ _ _ _ _ _ _ _ _ _ _ _).
Qed.
Section Less.
Variables E E' : env.
Hypothesis HF : fewer E' E.
Lemma match_same_on : forall F l l' k k', Forall2 same_entry l l' -> Forall2 same_parser k k' -> same_parser (match_parsers (on F l ++ k)) (match_parsers (on F l' ++ k')).
Proof.
  intros F l l' k k' H Hk. apply match_same. apply Forall2_app; [|exact Hk]. unfold on. induction H as [|x y l l' [H1 H2] H IH]; [constructor|]. cbn [map concat]. apply Forall2_app; [|exact IH].
  rewrite H1. destruct (snd (fst y) F); cbn [cfg]; repeat constructor. exact H2.
Qed.
Lemma less_any : forall i, any_field E' i = match_parsers (on E' (entries E) ++ [unk E]) i.
Proof. intros i. rewrite any_field_on. destruct (less_parsers E E' HF) as (H1 & H2 & _). apply match_same_on; [exact H1|]. constructor; [exact H2|constructor]. Qed.
Lemma less_on : forall x, In x (entries E) -> snd (fst x) E' = true -> snd (fst x) E = true.
Proof. intros x H. unfold entries in H. cbn [In] in H. destruct HF. repeat (destruct H as [<-|H]; [cbn [snd fst]; first [assumption|congruence]|]). destruct H. Qed.
Lemma any_less : forall i r f, any_field E i = Ok (r, f) -> is_trace f = None /\
  ((feature E' f = true /\ any_field E' i = Ok (r, f)) \/ (feature E' f = false /\ any_field E' i = match_parsers [unk E'] i)).
Proof.
  intros i r f. rewrite less_any, any_field_on. replace (match_parsers [unk E'] i) with (match_parsers [unk E] i); [|symmetry; apply match_same; constructor; [apply (less_parsers E E' HF)|constructor]]. intros H.
  assert (U : match_parsers [unk E] i = Ok (r, f) -> is_trace f = None /\ feature E' f = true).
  { intros X. apply match_ok in X as (p & [<-|[]] & X). apply pmap_inv in X as [[n v] ->]. now split. }
  destruct (any_field_choice E i) as [C|(x & Hx & C)]; rewrite !C in *; [destruct (U H); auto|]. pose proof (less_on x Hx) as L.
  destruct (snd (fst x) E) eqn:XE.
  - destruct (snd x i) as [[r' f']|e|k] eqn:P; [|destruct (U H); destruct (snd (fst x) E'); auto|discriminate].
    inversion H; subst r' f'. destruct (entry_feature E x i r f Hx P) as [T W]. split; [exact T|]. rewrite (W E'). destruct (snd (fst x) E'); auto.
  - destruct (U H). destruct (snd (fst x) E'); [now specialize (L eq_refl)|auto].
Qed.

(* ---- a line of a lost header ---- *)
Lemma hline_starts : forall c i, hline c -> starts_header (c ++ i).
Proof. intros c i [n t Hn Ht]. exists n, (t ++ CRLF ++ i). rewrite <- !app_assoc. auto. Qed.
Lemma hlines_starts : forall c i, hlines c -> bare i -> starts_header (c ++ i) \/ bare (c ++ i).
Proof. intros c i [|c' d H _] Hi; [now right|left]. rewrite <- app_assoc. now apply hline_starts. Qed.
Lemma hlines_wsp : forall c i, hlines c -> bare i -> ends is_wsp (c ++ i).
Proof. intros c i H Hi. destruct (hlines_starts c i H Hi); [now apply starts_header_wsp|now apply bare_wsp]. Qed.
Inductive tline : bytes -> Prop :=
| tline_intro : forall (name : string) n t, In name trace_names -> same_nocase n (bs name) -> lined t -> tline (n ++ [58] ++ t ++ CRLF).
(* the lines of the headers that are not interpreted any more have no blank line *)
Definition lost (c : bytes) : Prop := (exists f, field_text E c f /\ is_trace f = None /\ feature E' f = false) \/ (f_trace E' = false /\ tline c).
Definition good (i : bytes) : Prop := forall a n t z, i = a ++ (n ++ [58] ++ t ++ CRLF) ++ z -> hlines a -> chars1 rfc_ftext n -> lined t -> ends is_wsp z -> lost (n ++ [58] ++ t ++ CRLF) -> unblank t.
Lemma good_tail : forall c i, hlines c -> good (c ++ i) -> good i.
Proof. intros c i Hc H a n t z -> Ha. apply (H (c ++ a) n t z); [now rewrite <- !app_assoc|now apply hlines_app]. Qed.
Lemma clear_value_exists : forall t, lined t -> unblank t -> exists v, clear_text_value (f_unrecognized_headers E') (textcode E') t v.
Proof. intros t H1 H2. destruct (lined_unblank t H1 H2) as [v Hv]. unfold clear_text_value. destruct (f_unrecognized_headers E'); [eapply clear_text_exists; eauto|eauto]. Qed.
Lemma clear_value_text : forall m tc t v, clear_text_value m tc t v -> rfc_text_value m tc t v.
Proof. intros [] tc t v H; [now apply clear_text_sub|exact H]. Qed.
(* a header line that is not interpreted is kept as an unknown header *)
Lemma lost_line : forall c i, hline c -> good (c ++ i) -> ends is_wsp i -> lost c ->
  exists f, match_parsers [unk E'] (c ++ i) = Ok (i, f) /\ unknown_line E' c f.
Proof.
  intros c i Hc HB Hi HL. destruct Hc as [n t Hn Ht]. destruct (clear_value_exists t Ht (HB [] n t i eq_refl hlines_nil Hn Ht Hi HL)) as [v Hv]. exists (FUnknown n v). split.
  - rewrite <- !app_assoc. apply parsers_hit. apply (pmap_ok _ _ (fun '(n, v) => FUnknown n v) (unknown E') _ i (n, v)). now apply unknown_forward.
  - exists n, v. split; [reflexivity|]. constructor; [exact Hn|]. now apply clear_value_text.
Qed.
Lemma hline_nonempty : forall c, hline c -> c <> [].
Proof. intros c [n t _ _]. destruct n; discriminate. Qed.
Lemma shorter_app : forall (c i : bytes), c <> [] -> (length i < length (c ++ i))%nat.
Proof. intros [|x c] i H; [congruence|]. cbn. rewrite app_length. lia. Qed.

(* ---- the headers outside of the trace blocks ---- *)
Hypothesis HE : env_ok E.
Lemma steps_less : forall i l r, steps (any_field E) i l r -> bare r -> good i ->
  exists c l', i = c ++ r /\ hlines c /\ steps (any_field E') i l' r /\ demoted E E' c l l'.
Proof.
  intros i l r H Hr. induction H as [i e H|i r1 f l r H L Hs IH]; intros HB.
  - exists [], []. split; [reflexivity|]. split; [constructor|]. split; [|constructor]. destruct (any_field_bare E' i Hr) as [e' He]. econstructor; eauto.
  - destruct (any_field_sound E i r1 f HE H) as (c & -> & Hc). pose proof (field_hlines _ _ _ Hc) as HL.
    destruct (IH Hr (good_tail _ _ HL HB)) as (d & l' & -> & Hd & Hs' & Hm).
    destruct (any_less _ _ _ H) as [T [[F A]|[F A]]].
    + exists (c ++ d), (f :: l'). split; [now rewrite app_assoc|]. split; [now apply hlines_app|]. split; [eapply steps_more; eauto|]. now apply demoted_kept.
    + pose proof (field_hline _ _ _ Hc T) as Hl. destruct (lost_line c (d ++ r) Hl HB (hlines_wsp d r Hd Hr)) as (g & G & U); [left; now exists f|].
      exists (c ++ d), ([g] ++ l'). split; [now rewrite app_assoc|]. split; [now apply hlines_app|]. split; [eapply steps_more; [rewrite A; exact G|exact L|exact Hs']|].
      apply demoted_lost; auto; [|discriminate]. rewrite <- (app_nil_r c). constructor; [exact U|constructor].
Qed.

(* ---- trace blocks ---- *)
Inductive tlines : bytes -> Prop :=
| tlines_nil : tlines []
| tlines_cons : forall c d, tline c -> tlines d -> tlines (c ++ d).
Lemma tlines_app : forall a b, tlines a -> tlines b -> tlines (a ++ b).
Proof. intros a b H Hb. induction H; cbn [app]; auto. rewrite <- app_assoc. now constructor. Qed.
Lemma tlines_one : forall c, tline c -> tlines c.
Proof. intros c H. rewrite <- (app_nil_r c). constructor; [exact H|constructor]. Qed.
Lemma tlines_many : forall A (P : bytes -> A -> Prop) c l, (forall c a, P c a -> tlines c) -> many_of P c l -> tlines c.
Proof. intros A P c l HP H. induction H; [constructor|]. apply tlines_app; eauto. Qed.
Lemma header_tline : forall A (name : string) (V : bytes -> A -> Prop) c v, rfc_header name V c v -> In name trace_names -> (forall c v, V c v -> lined c) -> tline c.
Proof. intros A name V c v [n t v' H1 H2] Hn HV. econstructor; eauto. Qed.
Ltac tl H := eapply header_tline; [exact H|in_list|intros].
Lemma block_tlines : forall c p r l, field_text E c (FTrace p r l) -> tlines c.
Proof.
  intros c p r l H. inversion H as [| | | | | | | | | | | | | | | | | | |c1 p' c2 r' c3 l' _ H1 _ H2 H3|]; subst. repeat apply tlines_app.
  - destruct H1 as [|c' p' H1]; [constructor|]. apply tlines_one. tl H1; lv.
  - eapply tlines_many; [|exact H2]. intros c' a Ha. apply tlines_one. tl Ha; lv.
  - eapply tlines_many; [|exact H3]. intros c' a Ha. apply tlines_one. destruct Ha; lazymatch goal with H : rfc_header _ _ _ _ |- _ => tl H; lv end.
Qed.
Lemma trace_letters : forall name, In name trace_names -> bs name <> [] /\ Forall (fun x => 65 <= x <= 90 \/ 97 <= x <= 122 \/ x = 45) (bs name) /\ ~ In 58 (bs name).
Proof. intros name H. unfold trace_names in H. cbn [In] in H. repeat (destruct H as [<-|H]; [split; [discriminate|]; split; [letters|no_colon]|]). destruct H. Qed.
Lemma tline_hline : forall c, tline c -> hline c.
Proof.
  intros c [name n t Hn Hs Ht]. destruct (trace_letters name Hn) as (H1 & H2 & _). constructor; [|exact Ht]. split; [|eapply nocase_ftext; eauto].
  intros ->. apply nocase_length in Hs. destruct (bs name); [congruence|discriminate].
Qed.
Lemma tline_unnamed : forall c i, f_trace E' = false -> tline c -> unnamed E' (c ++ i).
Proof.
  intros c i F [name n t Hn Hs Ht] other Ho. rewrite <- !app_assoc. destruct (trace_letters name Hn) as (_ & _ & H3).
  assert (T : forallb (fun a => forallb (fun b => negb (bytes_eqb (map fold_case (bs a)) (map fold_case (bs b))) && negb (existsb (N.eqb 58) (bs b))) names) trace_names = true) by (vm_compute; reflexivity).
  assert (K : In other names).
  { unfold known_names, when in Ho. rewrite F in Ho. repeat (apply in_app_or in Ho as [Ho|Ho]);
      match type of Ho with In _ (if ?b then _ else _) => destruct b; [|destruct Ho] | In _ [] => destruct Ho end; repeat (destruct Ho as [<-|Ho]; [unfold names; cbn [map ename fst entries]; in_list|]); destruct Ho. }
  rewrite forallb_forall in T. specialize (T name Hn). rewrite forallb_forall in T. specialize (T other K). apply andb_true_iff in T as [T _]. apply negb_true_iff in T.
  eapply header_other; eauto using names_colon.
Qed.
Lemma lost_lines : f_trace E' = false -> forall c, tlines c -> forall d r l, hlines d -> bare r -> good (c ++ d ++ r) -> steps (any_field E') (d ++ r) l r ->
  hlines c /\ exists l0, many_of (unknown_line E') c l0 /\ (c <> [] -> l0 <> []) /\ steps (any_field E') (c ++ d ++ r) (l0 ++ l) r.
Proof.
  intros F c H. induction H as [|c c' Hc H IH]; intros d r l Hd Hr HB Hs.
  - split; [constructor|]. exists []. split; [constructor|]. split; [congruence|exact Hs].
  - pose proof (tline_hline c Hc) as Hl. rewrite <- app_assoc in HB.
    destruct (IH d r l Hd Hr (good_tail _ _ (hlines_one _ Hl) HB)) as (HL & l0 & H1 & _ & H2); auto.
    split; [now constructor|]. destruct (lost_line c (c' ++ d ++ r) Hl HB) as (g & G & U).
    { rewrite app_assoc. apply hlines_wsp; auto. now apply hlines_app. }
    { right. auto. }
    exists (g :: l0). split; [now constructor|]. split; [discriminate|]. rewrite <- app_assoc. cbn [app]. eapply steps_more; [|apply shorter_app; now apply hline_nonempty|exact H2].
    rewrite unnamed_skip; [exact G|]. now apply tline_unnamed.
Qed.
Lemma steps_texts : forall A (p : parser A) (P : bytes -> A -> Prop), (forall i r a, p i = Ok (r, a) -> exists c, i = c ++ r /\ P c a) -> forall i l r, steps p i l r -> exists c, i = c ++ r /\ many_of P c l.
Proof.
  intros A p P HP i l r H. induction H as [i e H|i r1 a l r H L Hs (d & -> & IH)]; [exists []; split; [reflexivity|constructor]|]. destruct (HP _ _ _ H) as (c & -> & Hc). exists (c ++ d).
  split; [now rewrite app_assoc|now constructor].
Qed.
Lemma lost_blocks : f_trace E' = false -> forall c fs, many_of (fun c f => field_text E c f /\ is_trace f <> None) c fs -> forall d r l l', hlines d -> bare r -> good (c ++ d ++ r) ->
  steps (any_field E') (d ++ r) l' r -> demoted E E' d l l' ->
  hlines c /\ exists l0, steps (any_field E') (c ++ d ++ r) l0 r /\ demoted E E' (c ++ d) (fs ++ l) l0.
Proof.
  intros F c fs H. induction H as [|c f c' fs [Hc Hf] H IH]; intros d r l l' Hd Hr HB Hs Hm.
  - split; [constructor|]. exists l'. now split.
  - pose proof (field_hlines _ _ _ Hc) as HL. rewrite <- app_assoc in HB. destruct (IH d r l l' Hd Hr (good_tail _ _ HL HB)) as (HL' & l1 & H1 & H2); auto.
    split; [now apply hlines_app|]. assert (T : tlines c) by (destruct f; cbn in Hf; try congruence; eapply block_tlines; eauto).
    destruct (lost_lines F c T (c' ++ d) r l1) as (_ & l0 & H3 & H4 & H5); [now apply hlines_app|exact Hr|now rewrite <- !app_assoc|now rewrite <- app_assoc|].
    exists (l0 ++ l1). rewrite <- (app_assoc c c' (d ++ r)), <- (app_assoc c c' d). rewrite <- app_assoc in H5. split; [exact H5|]. cbn [app]. apply demoted_lost; auto; [destruct f; cbn in Hf; try congruence; exact F|]. apply H4. eapply field_text_nonempty; eauto.
Qed.
Lemma kept_blocks : f_trace E' = true -> forall c fs, many_of (fun c f => field_text E c f /\ is_trace f <> None) c fs -> forall d l l', demoted E E' d l l' -> demoted E E' (c ++ d) (fs ++ l) (fs ++ l').
Proof.
  intros F c fs H. induction H as [|c f c' fs [Hc Hf] H IH]; intros d l l' Hm; [exact Hm|]. rewrite <- app_assoc. cbn [app]. apply demoted_kept; auto. destruct f; cbn in Hf; try congruence; exact F.
Qed.
Lemma block_is : f_trace E = true -> forall i r f, trace_block E i = Ok (r, f) -> exists c, i = c ++ r /\ field_text E c f /\ is_trace f <> None.
Proof.
  intros F i r f H. pose proof (sound_trace_block E never i F) as S. rewrite H in S. destruct S as (c & -> & Hc). exists c. split; [reflexivity|]. split; [exact Hc|].
  revert H. unfold trace_block. destruct (trace E (c ++ r)) as [[i1 [p q]]|e|k]; cbn [bind]; try discriminate. destruct (many (resent_field E) i1) as [[i2 l]|e|k]; cbn [bind]; try discriminate. intros H. inversion H. discriminate.
Qed.
Lemma fields_less : forall data r fs, fields E data = Ok (r, fs) -> bare r -> good data ->
  exists c fs', data = c ++ r /\ fields E' data = Ok (r, fs') /\ demoted E E' c fs fs'.
Proof.
  intros data r fs H Hr HB. unfold fields in *. destruct (f_trace E) eqn:TE.
  - destruct (many (trace_block E) data) as [[r1 t]|e|k] eqn:M; cbn [bind] in H; try discriminate. destruct (many (any_field E) r1) as [[r2 l]|e|k] eqn:M2; cbn [bind] in H; inversion H; subst r2 fs.
    apply many_inv in M2; [|intros j q a; apply (progress_any_field E HE)]. apply many_inv in M; [|intros j q a; now apply progress_block].
    destruct (steps_texts _ _ _ (block_is TE) _ _ _ M) as (c & -> & Hc).
    assert (HL : hlines c). { eapply hlines_many; [|exact Hc]. intros c' a [Ha _]. eapply field_hlines; eauto. }
    destruct (steps_less _ _ _ M2 Hr (good_tail _ _ HL HB)) as (d & l' & -> & Hd & Hs & Hm). destruct (f_trace E') eqn:TE'.
    + exists (c ++ d), (t ++ l'). split; [now rewrite app_assoc|]. split; [|now apply kept_blocks]. rewrite (many_same _ _ _ (proj2 (proj2 (less_parsers E E' HF)))), (many_steps _ _ _ _ _ M). cbn [bind].
      now rewrite (many_steps _ _ _ _ _ Hs).
    + destruct (lost_blocks TE' c t Hc d r l l') as (_ & l0 & H1 & H2); auto. exists (c ++ d), l0. split; [now rewrite app_assoc|]. split; [|exact H2]. cbn [bind]. now rewrite (many_steps _ _ _ _ _ H1).
  - cbn [bind] in H. destruct (many (any_field E) data) as [[r2 l]|e|k] eqn:M2; cbn [bind] in H; inversion H; subst r2 fs.
    apply many_inv in M2; [|intros j q a; apply (progress_any_field E HE)]. destruct (steps_less _ _ _ M2 Hr HB) as (d & l' & -> & Hd & Hs & Hm).
    exists d, l'. split; [reflexivity|]. split; [|exact Hm]. destruct (f_trace E') eqn:TE'; [now rewrite (fewer_trace _ _ HF TE') in TE|]. cbn [bind]. now rewrite (many_steps _ _ _ _ _ Hs).
Qed.
Lemma message_less : forall data fs b, parse_message E data = Ok (fs, b) -> good data ->
  exists c r fs', data = c ++ r /\ rest_text r b /\ parse_message E' data = Ok (fs', b) /\ demoted E E' c fs fs'.
Proof.
  intros data fs b H HB. unfold parse_message in *. destruct (fields E data) as [[r l]|e|k] eqn:X; cbn [bind] in H; try discriminate. rewrite (fewer_mime _ _ HF).
  assert (R : l = fs /\ rest_text r b /\ bare r).
  { destruct r as [|x r].
    - assert (H' : Ok (l, None) = Ok (fs, b)) by (destruct (f_mime E); exact H). inversion H'. split; [reflexivity|]. split; [constructor|now left].
    - destruct (starts_with (x :: r) CRLF) eqn:S.
      + apply starts_with_spec in S as [z Z]. rewrite Z in *. destruct (body_crlf (f_mime E) z) as [Y|(Y1 & _ & e & Y2)].
        * rewrite Y in H. inversion H. split; [reflexivity|]. split; [constructor|right; eauto].
        * rewrite Y1, Y2 in H. discriminate.
      + rewrite (body_stop (f_mime E) (x :: r)) in H by (auto; discriminate). discriminate. }
  destruct R as (-> & R & Hr). destruct (fields_less _ _ _ X Hr HB) as (c & fs' & -> & Hf & Hm). exists c, r, fs'. split; [reflexivity|]. split; [exact R|]. rewrite Hf. cbn [bind]. split; [|exact Hm].
  destruct (if f_mime E then mime_body r else body r) as [b'|e|k]; cbn [bind] in H |- *; try discriminate. now inversion H.
Qed.
End Less.

(* ---- emails ---- *)
Lemma unknown_pick : forall E A (sel : field -> option A) c l, (forall n v, sel (FUnknown n v) = None) -> many_of (unknown_line E) c l -> pick sel l = [].
Proof. intros E A sel c l HS H. induction H as [|c f cs l (n & v & -> & _) H IH]; [reflexivity|]. unfold pick in *. cbn [map concat]. rewrite IH, HS. reflexivity. Qed.
Lemma demoted_pick : forall E E' c fs fs', demoted E E' c fs fs' -> forall A (sel : field -> option A) (g : env -> bool),
  (forall n v, sel (FUnknown n v) = None) -> (forall f a F, sel f = Some a -> feature F f = g F) -> pick sel fs' = if g E' then pick sel fs else [].
Proof.
  intros E E' c fs fs' H A sel g HU HG. induction H as [|c f cs fs fs' Hc Hf H IH|c f l cs fs fs' Hc Hf Hl Hn H IH].
  - now destruct (g E').
  - unfold pick in *. cbn [map concat]. rewrite IH. destruct (sel f) as [a|] eqn:S; [|now destruct (g E')]. rewrite (HG f a E' S) in Hf. rewrite Hf. reflexivity.
  - rewrite pick_app, (unknown_pick _ _ sel c l HU Hl), IH. destruct (g E') eqn:G; [|reflexivity]. unfold pick. cbn [app map concat]. destruct (sel f) as [a|] eqn:S; [|reflexivity]. rewrite (HG f a E' S) in Hf. congruence.
Qed.
Lemma sub_refl : forall A (l : list A), subsequence l l.
Proof. induction l; constructor; auto. Qed.
Lemma sub_app_skip : forall A (l xs ys : list A), subsequence xs ys -> subsequence xs (l ++ ys).
Proof. induction l; intros; cbn; auto. constructor; auto. Qed.
Lemma sub_app : forall A (l xs ys : list A), subsequence xs ys -> subsequence (l ++ xs) (l ++ ys).
Proof. induction l; intros; cbn; auto. constructor; auto. Qed.
Lemma sub_in : forall A (xs ys : list A) a, subsequence xs ys -> In a xs -> In a ys.
Proof. intros A xs ys a H. induction H; cbn; intuition. Qed.
Lemma sub_nodup : forall A (xs ys : list A), subsequence xs ys -> NoDup ys -> NoDup xs.
Proof. intros A xs ys H. induction H as [|a xs ys H IH|a xs ys H IH]; intros N; [constructor| |]; inversion N; subst; auto. constructor; auto. intros X. eapply sub_in in X; eauto. Qed.
Lemma demoted_singular : forall E E' c fs fs', demoted E E' c fs fs' -> subsequence (pick singular fs') (pick singular fs).
Proof.
  intros E E' c fs fs' H. induction H as [|c f cs fs fs' Hc Hf H IH|c f l cs fs fs' Hc Hf Hl Hn H IH]; [constructor| |].
  - unfold pick in *. cbn [map concat]. now apply sub_app.
  - rewrite pick_app, (unknown_pick E' _ singular c l (fun _ _ => eq_refl) Hl). unfold pick in *. cbn [map concat app]. now apply sub_app_skip.
Qed.
Lemma demoted_unknown : forall E E' c fs fs', demoted E E' c fs fs' -> subsequence (pick is_unknown fs) (pick is_unknown fs').
Proof.
  intros E E' c fs fs' H. induction H as [|c f cs fs fs' Hc Hf H IH|c f l cs fs fs' Hc Hf Hl Hn H IH]; [constructor| |].
  - unfold pick in *. cbn [map concat]. now apply sub_app.
  - rewrite pick_app. apply sub_app_skip. unfold pick in *. cbn [map concat]. destruct f; try exact IH. discriminate Hf.
Qed.
Lemma pick_once : forall A (sel : field -> option A) n fs a, (forall f x, sel f = Some x -> singular f = Some n) -> NoDup (pick singular fs) -> only sel fs = Some a -> pick sel fs = [a].
Proof.
  intros A sel n fs a HS. assert (Z : forall fs, ~ In n (pick singular fs) -> pick sel fs = []).
  { induction fs0 as [|f fs0 IH]; intros H; [reflexivity|]. unfold pick in *. cbn [map concat] in *. destruct (sel f) as [x|] eqn:S.
    - exfalso. apply H. rewrite (HS _ _ S). now left.
    - cbn [opt_list app]. apply IH. intros X. apply H. apply in_or_app. now right. }
  induction fs as [|f fs IH]; intros N H; [discriminate|]. unfold only, pick in *. cbn [map concat] in *. destruct (sel f) as [x|] eqn:S.
  - rewrite (HS _ _ S) in N. cbn [opt_list app] in *. inversion N; subst. inversion H; subst. f_equal. now apply Z.
  - cbn [opt_list app] in *. apply IH; auto. destruct (singular f); cbn [opt_list app] in N; auto. now inversion N.
Qed.
Section LessEmail.
Variables (E E' : env) (c : bytes) (fs fs' : list field).
Hypothesis HF : fewer E' E.
Hypothesis HE' : env_ok E'.
Hypothesis HD : demoted E E' c fs fs'.
Ltac sel := first [reflexivity|let f := fresh in intros f ? ?; destruct f; cbn; try discriminate; reflexivity].
Ltac dp g := apply (demoted_pick E E' c fs fs' HD _ _ g); sel.
Lemma d_from : pick is_from fs' = if f_from E' then pick is_from fs else []. Proof. dp f_from. Qed.
Lemma d_sender : pick is_sender fs' = if f_sender E' then pick is_sender fs else []. Proof. dp f_sender. Qed.
Lemma d_date : pick is_date fs' = if f_date E' then pick is_date fs else []. Proof. dp f_date. Qed.
Lemma d_mime : forall A (sel : field -> option A), (forall n v, sel (FUnknown n v) = None) -> (forall f a F, sel f = Some a -> feature F f = f_mime F) -> f_mime E = true -> pick sel fs' = pick sel fs.
Proof. intros A sel H1 H2 M. rewrite (demoted_pick E E' c fs fs' HD _ sel f_mime H1 H2). now rewrite (fewer_mime _ _ HF), M. Qed.
Lemma less_acceptable : forall data b e, parse_message E data = Ok (fs, b) -> parse_message E' data = Ok (fs', b) -> email_of E fs b e -> (f_mime E = false -> forall t, b = Some t -> body_text t) -> acceptable E' fs' b.
Proof.
  intros data b e HM HM' H Hb. pose proof (of_unique _ _ _ _ H) as HN. constructor.
  - eapply sub_nodup; [eapply demoted_singular; eauto|exact HN].
  - intros F. rewrite d_from, F. pose proof (of_from _ _ _ _ H) as X. rewrite (fewer_from _ _ HF F) in X. intros Y. unfold only in X. now rewrite Y in X.
  - intros F. rewrite d_date, F. pose proof (of_date _ _ _ _ H) as X. rewrite (fewer_date _ _ HF F) in X. destruct X as [X X']. intros Y. unfold only in X. rewrite Y in X. cbn in X. congruence.
  - intros F. pose proof (ok_sender _ HE' F) as F'. rewrite d_from, d_sender, F, F'. pose proof (of_sender _ _ _ _ H) as X. rewrite (fewer_sender _ _ HF F) in X. destruct X as [X X'].
    pose proof (of_from _ _ _ _ H) as Y. rewrite (fewer_from _ _ HF F') in Y. destruct (pick is_sender fs) eqn:P; [|left; discriminate]. right. unfold only at 1 in X. rewrite P in X. cbn in X.
    destruct (from e) as [|m [|m' l]] eqn:Q; try congruence. exists m. apply (pick_once _ is_from "From" fs [m]); auto. intros f x. destruct f; cbn; try discriminate. reflexivity.
  - rewrite (fewer_mime _ _ HF). intros M t ->. pose proof (of_mime _ _ _ _ H) as X. rewrite M in X. destruct X as (v & X & _). exists v. unfold only. rewrite (d_mime _ is_cte); auto; sel.
  - rewrite (fewer_mime _ _ HF). exact Hb.
Qed.
Lemma less_poorer : forall b e e', email_of E fs b e -> email_of E' fs' b e' -> poorer E' e e'.
Proof.
  intros b e e' H H'.
  assert (D : forall A (sel : field -> option A) (g : env -> bool), (forall n v, sel (FUnknown n v) = None) -> (forall f a F, sel f = Some a -> feature F f = g F) -> only sel fs' = if g E' then only sel fs else None).
  { intros A sel g H1 H2. unfold only. rewrite (demoted_pick E E' c fs fs' HD _ sel g H1 H2). now destruct (g E'). }
  assert (M : forall A (sel : field -> option A), (forall n v, sel (FUnknown n v) = None) -> (forall f a F, sel f = Some a -> feature F f = f_mime F) -> f_mime E = true -> only sel fs' = only sel fs).
  { intros A sel H1 H2 Q. unfold only. now rewrite (d_mime _ sel H1 H2 Q). }
  assert (FR : from e' = if f_from E' then from e else []).
  { pose proof (of_from _ _ _ _ H) as X. pose proof (of_from _ _ _ _ H') as Y. destruct (f_from E') eqn:F; [|exact Y]. rewrite (fewer_from _ _ HF F) in X. rewrite (D _ is_from f_from), F in Y by sel. congruence. }
  constructor.
  - exact FR.
  - pose proof (of_sender _ _ _ _ H) as X. pose proof (of_sender _ _ _ _ H') as Y. destruct (f_sender E') eqn:F; [|exact Y]. rewrite (fewer_sender _ _ HF F) in X. destruct X as [X _], Y as [Y _].
    rewrite X, Y, FR, (ok_sender _ HE' F), (D _ is_sender f_sender), F by sel. reflexivity.
  - rewrite (of_subject _ _ _ _ H), (of_subject _ _ _ _ H'). apply D; sel.
  - pose proof (of_date _ _ _ _ H) as X. pose proof (of_date _ _ _ _ H') as Y. destruct (f_date E') eqn:F; [|exact Y]. rewrite (fewer_date _ _ HF F) in X. destruct X as [X _], Y as [Y _].
    rewrite (D _ is_date f_date), F in Y by sel. congruence.
  - rewrite (of_to _ _ _ _ H), (of_to _ _ _ _ H'). apply D; sel.
  - rewrite (of_cc _ _ _ _ H), (of_cc _ _ _ _ H'). apply D; sel.
  - rewrite (of_bcc _ _ _ _ H), (of_bcc _ _ _ _ H'). apply D; sel.
  - rewrite (of_message_id _ _ _ _ H), (of_message_id _ _ _ _ H'). apply D; sel.
  - rewrite (of_in_reply_to _ _ _ _ H), (of_in_reply_to _ _ _ _ H'). apply D; sel.
  - rewrite (of_references _ _ _ _ H), (of_references _ _ _ _ H'). apply D; sel.
  - rewrite (of_reply_to _ _ _ _ H), (of_reply_to _ _ _ _ H'). apply D; sel.
  - rewrite (of_comments _ _ _ _ H), (of_comments _ _ _ _ H'). dp f_comments.
  - rewrite (of_keywords _ _ _ _ H), (of_keywords _ _ _ _ H'). rewrite (demoted_pick E E' c fs fs' HD _ is_keywords f_keywords) by sel. now destruct (f_keywords E').
  - rewrite (of_trace _ _ _ _ H), (of_trace _ _ _ _ H'). dp f_trace.
  - rewrite (of_body _ _ _ _ H), (of_body _ _ _ _ H'). now rewrite (fewer_mime _ _ HF).
  - pose proof (of_mime _ _ _ _ H) as X. pose proof (of_mime _ _ _ _ H') as Y. rewrite (fewer_mime _ _ HF) in Y. destruct (f_mime E) eqn:Q; [|congruence]. destruct X as (v & X1 & X2), Y as (v' & Y1 & Y2).
    rewrite (M _ is_cte) in Y1 by (auto; sel). rewrite (M _ is_content_type), (M _ is_content_description), (M _ is_content_id), (M _ is_content_disposition) in Y2 by (auto; sel).
    rewrite X2, Y2. replace v' with v; [reflexivity|]. destruct b; [eapply transfer_fun; eauto|congruence].
  - rewrite (of_unknown _ _ _ _ H), (of_unknown _ _ _ _ H'). eapply demoted_unknown; eauto.
Qed.
End LessEmail.
Lemma message_body_ok : forall E data fs b, parse_message E data = Ok (fs, b) -> f_mime E = false -> forall t, b = Some t -> body_text t.
Proof.
  intros E data fs b H M t ->. unfold parse_message in H. rewrite M in H. destruct (fields E data) as [[r l]|e|k]; cbn [bind] in H; try discriminate. destruct r as [|x r]; [discriminate|].
  destruct (starts_with (x :: r) CRLF) eqn:S; [|pose proof (body_stop false (x :: r)) as Y; cbn in Y; unfold body in *; rewrite tag_stop in H by exact S; discriminate].
  apply starts_with_spec in S as [z Z]. rewrite Z in H. destruct (body_spec z) as [[Hz Y]|[Hz Y]]; rewrite Y in H; cbn [bind] in H; inversion H; subst. exact Hz.
Qed.
Theorem email_less : forall E E' data e, env_ok E -> env_ok E' -> fewer E' E -> good E E' data -> parse E data = Ok e ->
  exists e' c r b fs fs', data = c ++ r /\ rest_text r b /\ demoted E E' c fs fs' /\ email_of E fs b e /\ email_of E' fs' b e' /\ parse E' data = Ok e' /\ poorer E' e e'.
Proof.
  intros E E' data e HE HE' HF HB H. destruct (parse_ok_message _ _ _ H) as (fs & b & M). apply (parse_iff_email E _ fs b e HE M) in H.
  destruct (message_less E E' HF HE data fs b M HB) as (c & r & fs' & -> & Hr & M' & HD).
  destruct (acceptable_email E' (c ++ r) fs' b HE' M') as (e' & P & H').
  { eapply less_acceptable; eauto. eapply message_body_ok; eauto. }
  exists e', c, r, b, fs, fs'. split; [reflexivity|]. split; [exact Hr|]. split; [exact HD|]. split; [exact H|]. split; [exact H'|]. split; [exact P|]. eapply less_poorer; eauto.
Qed.

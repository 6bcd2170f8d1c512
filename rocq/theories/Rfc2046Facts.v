(* C67: what the parser makes of the multipart bodies of RFC 2046. *)
From Coq Require Import Lia.
From Verif Require Import Base Combinators MimeFields Fields Entity Envs Rfc5322 MultipartSpec CutSpec MultipartProofs MultipartRound CutFacts Rfc2046Spec.
Local Ltac lia := unfold bytes, byte in *; Lia.lia.

Section boundary.
Context (b : bytes) (Hb : ~ In 13%N b).
Local Notation D := (line_delimiter b).

Lemma delimiter_line : delimiter b = D ++ CRLF.
Proof. unfold delimiter, line_delimiter. now rewrite <- app_assoc. Qed.
Lemma closing_line : closing_delimiter b = D ++ bs "--" ++ CRLF.
Proof. unfold closing_delimiter, line_delimiter. now rewrite <- !app_assoc. Qed.
Lemma line_shape : exists d, D = 13%N :: d /\ ~ In 13%N d.
Proof.
  exists (10%N :: dash_boundary b). split; [reflexivity|]. intros [H|H]; [discriminate|]. unfold dash_boundary in H. apply in_app_or in H as [H|H]; [|contradiction]. cbn in H. intuition discriminate.
Qed.
(* a line delimiter in a text with a part x without CR is after it *)
Lemma line_after : forall x y q z, ~ In 13%N x -> x ++ y = q ++ D ++ z -> exists q', q = x ++ q' /\ y = q' ++ D ++ z.
Proof.
  intros x y q z Hx E. apply app_eq_app in E as (l & [[-> E]|[-> E]]); [|now exists l].
  destruct l as [|c l]; [exists []; rewrite !app_nil_r; split; [reflexivity|symmetry; exact E]|]. exfalso. destruct line_shape as (d & HD & _). rewrite HD in E. cbn [app] in E. injection E as E0 _. apply Hx. apply in_or_app. right. left. congruence.
Qed.
Lemma line_next : forall y q z, D ++ y = q ++ D ++ z -> q = [] \/ exists q', q = D ++ q' /\ y = q' ++ D ++ z.
Proof.
  intros y q z E. destruct q as [|c q]; [now left|right]. destruct line_shape as (d & HD & Hd). rewrite HD in E. cbn [app] in E. injection E as <- E. change (13%N :: d ++ z) with ((13%N :: d) ++ z) in E. rewrite <- HD in E.
  apply line_after in E as (q' & -> & E); [|exact Hd]. exists q'. split; [now rewrite HD|exact E].
Qed.

(* the first line delimiter after y that a CR or a hyphen follows is the one at its end *)
Definition good (y : bytes) : Prop := forall t q c z, c = 13%N \/ c = 45%N -> y ++ D ++ t = q ++ D ++ c :: z -> length y <= length q.
Lemma good_clean : forall p, clean b p -> good (CRLF ++ p).
Proof.
  intros p Hp t q c z _ E. destruct (le_lt_dec (length (CRLF ++ p)) (length q)) as [L|L]; [exact L|exfalso]. apply Hp. unfold occurs.
  apply app_eq_app in E as (l & [[X E]|[-> E]]).
  - symmetry in E. apply app_eq_app in E as (m & [[HL E]|[HD E]]).
    + rewrite HL in X. exists q, m. exact X.
    + destruct m as [|a m]; [rewrite app_nil_r in HD; rewrite <- HD in X; exists q, []; rewrite app_nil_r; exact X|]. exfalso.
      destruct line_shape as (d & HD' & Hd). destruct l as [|a' l]; [rewrite app_nil_r in X; rewrite X in L; lia|]. rewrite HD' in HD, E. cbn [app] in HD, E. injection HD as E1 HD. injection E as E2 _.
      apply Hd. rewrite HD. apply in_or_app. right. left. congruence.
  - rewrite app_length in L. lia.
Qed.
Lemma good_nil : good [].
Proof. intros t q c z _ _. cbn. lia. Qed.
Lemma wsp_cr : forall w, chars rfc_WSP w -> ~ In 13%N w.
Proof. intros w H X. apply (proj1 (Forall_forall _ _) H) in X. unfold rfc_WSP in X. lia. Qed.
Lemma good_padded : forall y w p, good y -> chars rfc_WSP w -> w <> [] -> clean b p -> good (y ++ D ++ w ++ CRLF ++ p).
Proof.
  intros y w p Hy Hw Nw Hp t q c z Hc E. rewrite <- !app_assoc in E. pose proof (Hy _ _ _ _ Hc E) as L. apply app_eq_app in E as (l & [[X E]|[-> E]]).
  - destruct l as [|a l]; [|rewrite X, app_length in L; cbn in L; lia]. cbn [app] in E. apply app_inv_head in E. destruct w as [|x w]; [easy|]. cbn in E. injection E as -> _.
    inversion Hw as [|x' w' Hx _]; subst. unfold rfc_WSP in Hx. lia.
  - pose proof E as X. apply line_next in E as [->|(q' & -> & E)].
    + cbn [app] in X. exfalso. apply app_inv_head in X. destruct w as [|x w]; [easy|]. cbn in X. injection X as -> _.
      inversion Hw as [|x' w' Hx _]; subst. unfold rfc_WSP in Hx. lia.
    + apply line_after in E as (q2 & -> & E); [|now apply wsp_cr]. rewrite (app_assoc CRLF p) in E. apply (good_clean p Hp) in E; [|exact Hc]. rewrite !app_length in *. lia.
Qed.

(* the end *)
Lemma end_line : forall w e t, body_end b w e t -> exists u, t = D ++ bs "--" ++ u.
Proof. intros w e t [w' Hw|w' epi Hw He]; eauto. Qed.
Lemma end_only : forall w e t q c z, body_end b w e t -> t = q ++ D ++ c :: z -> q = [].
Proof.
  intros w e t q c z H E. assert (X : forall u, chars rfc_WSP w -> t = D ++ bs "--" ++ w ++ u -> q = [] \/ exists q', u = q' ++ D ++ c :: z).
  { intros u Hw ->. apply line_next in E as [->|(q' & -> & E)]; [now left|right]. apply line_after in E as (q2 & -> & E); [|cbn; intuition discriminate]. apply line_after in E as (q3 & -> & E); [|now apply wsp_cr]. now exists q3. }
  destruct H as [w' Hw|w' epi Hw He].
  - destruct (X [] Hw) as [->|(q' & X')]; [now rewrite app_nil_r|reflexivity|]. exfalso. destruct q'; [|discriminate]. destruct line_shape as (d & HD & _). rewrite HD in X'. discriminate.
  - destruct (X (CRLF ++ epi) Hw eq_refl) as [->|(q' & X')]; [reflexivity|]. exfalso. apply He. exists q', (c :: z). exact X'.
Qed.
Lemma end_after : forall y w e t q c z, good y -> body_end b w e t -> c = 13%N \/ c = 45%N -> y ++ t = q ++ D ++ c :: z -> q = y.
Proof.
  intros y w e t q c z Hy H Hc E. destruct (end_line _ _ _ H) as [u Hu]. pose proof E as E'. rewrite Hu in E'. apply Hy in E'; [|exact Hc].
  apply app_eq_app in E as (l & [[X E]|[-> E]]).
  - destruct l as [|a l]; [now rewrite app_nil_r in X|]. rewrite X, app_length in E'. cbn in E'. lia.
  - apply (end_only _ _ _ _ _ _ H) in E as ->. now rewrite app_nil_r.
Qed.
Lemma encapsulations_line : forall l w e t, body_end b w e t -> exists u, encapsulations b l ++ t = D ++ u.
Proof. intros [|x l] w e t H; [destruct (end_line _ _ _ H) as [u ->]; eexists; reflexivity|]. unfold encapsulations. cbn [map concat]. unfold encapsulation. rewrite <- !app_assoc. eexists. reflexivity. Qed.

Lemma not_start : forall x u, good (CRLF ++ x) -> forall s, x ++ D ++ u <> dash_boundary b ++ CRLF ++ s.
Proof.
  intros x u Hx s E. assert (L : length (CRLF ++ x) <= 0); [|cbn in L; lia]. apply (Hx u [] 13%N (10%N :: s)); [now left|]. rewrite <- app_assoc, E. unfold line_delimiter. now rewrite <- app_assoc.
Qed.
Lemma good_sections : forall l w e t x, Forall (fun y => chars rfc_WSP (fst y) /\ clean b (snd y)) l -> body_end b w e t -> good (CRLF ++ x) ->
  exists ss last, sections b (x ++ encapsulations b l ++ t) ss (last ++ t) /\ ss ++ [last] = (x ++ fst (merged b l)) :: snd (merged b l) /\ good (CRLF ++ last).
Proof.
  intros l w e t. induction l as [|[v p] l IH]; intros x HF Ht Hx.
  - exists [], x. cbn [merged fst snd app]. rewrite app_nil_r. split; [|split; [reflexivity|exact Hx]]. change (encapsulations b [] ++ t) with t. apply sections_end.
    + destruct (end_line _ _ _ Ht) as [u ->]. now apply not_start.
    + intros (q & s & E). rewrite delimiter_line, <- app_assoc in E. assert (X : CRLF ++ q = CRLF ++ x).
      { apply (end_after (CRLF ++ x) w e t (CRLF ++ q) 13%N (10%N :: s) Hx Ht); [now left|]. rewrite <- !app_assoc, E. reflexivity. }
      apply app_inv_head in X. subst q. apply app_inv_head in E. destruct (end_line _ _ _ Ht) as [u ->]. apply app_inv_head in E. discriminate.
  - apply Forall_cons_iff in HF as [[Hv Hp] HF]. cbn [fst snd] in Hv, Hp. destruct (merged b l) as [m ps] eqn:M. destruct v as [|c v].
    + destruct (IH p HF Ht (good_clean p Hp)) as (ss & last & S & X & G). exists (x :: ss), last. cbn [merged]. rewrite M. cbn [fst snd app] in *. rewrite app_nil_r. split; [|split; [now rewrite X|exact G]].
      assert (T : x ++ encapsulations b (([], p) :: l) ++ t = x ++ delimiter b ++ p ++ encapsulations b l ++ t).
      { rewrite delimiter_line. unfold encapsulations. cbn [map concat]. unfold encapsulation. cbn [fst snd app]. now rewrite <- !app_assoc. }
      refine (eq_ind_r (fun i => sections b i _ _) _ T). apply (sections_next b _ x (p ++ encapsulations b l ++ t)); [|split; [reflexivity|]|exact S].
      * rewrite delimiter_line, <- app_assoc. now apply not_start.
      * intros q s E. rewrite delimiter_line, <- !app_assoc in E. assert (L : length (CRLF ++ x) <= length (CRLF ++ q)).
        { apply (Hx (CRLF ++ p ++ encapsulations b l ++ t) (CRLF ++ q) 13%N (10%N :: s)); [now left|]. rewrite <- !app_assoc. f_equal. exact E. }
        rewrite !app_length in L. lia.
    + destruct (IH (x ++ D ++ (c :: v) ++ CRLF ++ p) HF Ht) as (ss & last & S & X & G).
      { pose proof (good_padded (CRLF ++ x) (c :: v) p Hx Hv ltac:(discriminate) Hp) as Q. rewrite <- app_assoc in Q. exact Q. }
      exists ss, last. cbn [merged]. rewrite M. cbn [fst snd] in *. split; [|split; [|exact G]].
      * assert (T : x ++ encapsulations b ((c :: v, p) :: l) ++ t = (x ++ D ++ (c :: v) ++ CRLF ++ p) ++ encapsulations b l ++ t).
        { unfold encapsulations at 1. cbn [map concat]. unfold encapsulation at 1. cbn [fst snd]. now rewrite <- !app_assoc. }
        refine (eq_ind_r (fun i => sections b i _ _) _ T). exact S.
      * rewrite X. unfold encapsulation. cbn [fst snd]. now rewrite <- !app_assoc.
Qed.
Lemma body_sections : forall l w e text, rfc2046_body b l w e text ->
  exists ss last t pre, body_end b w e t /\ sections b text ss (last ++ t) /\ ss ++ [last] = pre :: snd (merged b l) /\ good (CRLF ++ last).
Proof.
  intros l w e text [pre l' w' e' t Hpre HF _ Ht|w1 p l' w' e' t HF Ht].
  - destruct (good_sections l' w' e' t pre HF Ht (good_clean pre Hpre)) as (ss & last & S & X & G). exists ss, last, t, (pre ++ fst (merged b l')). auto.
  - pose proof HF as HF'. apply Forall_cons_iff in HF as [[Hv Hp] HF]. cbn [fst snd] in Hv, Hp. destruct w1 as [|c v].
    + destruct (good_sections l' w' e' t p HF Ht (good_clean p Hp)) as (ss & last & S & X & G). exists ([] :: ss), last, t, []. split; [exact Ht|]. split; [now constructor|]. split; [|exact G].
      cbn [merged app]. destruct (merged b l'). cbn [fst snd] in *. now rewrite X.
    + destruct (good_sections l' w' e' t (dash_boundary b ++ (c :: v) ++ CRLF ++ p) HF Ht) as (ss & last & S & X & G).
      { pose proof (good_padded [] (c :: v) p good_nil Hv ltac:(discriminate) Hp) as Q. unfold line_delimiter in Q. cbn [app] in Q. rewrite <- ?app_assoc in Q. exact Q. }
      exists ss, last, t, ((dash_boundary b ++ (c :: v) ++ CRLF ++ p) ++ fst (merged b l')). split; [exact Ht|]. split; [|split; [|exact G]].
      * rewrite <- !app_assoc in S. exact S.
      * rewrite X. cbn [merged]. now destruct (merged b l').
Qed.
Lemma body_cut : forall l epi text, rfc2046_body b l [] (Some epi) text -> cut_parts b text (snd (merged b l)).
Proof.
  intros l epi text H. destruct (body_sections _ _ _ _ H) as (ss & last & t & pre & Ht & S & X & G). econstructor; [exact S| |exact X].
  inversion Ht as [|w' epi' Hw He E1 E2 E3]; subst. cbn [app]. exists. 
  - rewrite closing_line, <- !app_assoc. reflexivity.
  - intros q s E. rewrite closing_line, <- !app_assoc in E. assert (L : length (CRLF ++ last) <= length (CRLF ++ q)).
    { apply (G (bs "--" ++ CRLF ++ epi) (CRLF ++ q) 45%N (45%N :: CRLF ++ s)); [now right|]. rewrite <- !app_assoc. f_equal. exact E. }
    rewrite !app_length in L. lia.
Qed.
Lemma body_unclosed : forall l w e text, rfc2046_body b l w e text -> w <> [] \/ e = None -> unclosed b text.
Proof.
  intros l w e text H HW. destruct (body_sections _ _ _ _ H) as (ss & last & t & pre & Ht & S & X & G). exists ss, (last ++ t). split; [exact S|].
  intros (q & s & E). rewrite closing_line, <- !app_assoc in E. assert (Q : CRLF ++ q = CRLF ++ last).
  { apply (end_after (CRLF ++ last) w e t (CRLF ++ q) 45%N (45%N :: CRLF ++ s) G Ht); [now right|]. rewrite <- !app_assoc, E. reflexivity. }
  apply app_inv_head in Q. subst q. apply app_inv_head in E. destruct Ht as [w Hw|w epi Hw He]; apply app_inv_head in E; apply app_inv_head in E.
  - destruct w as [|x w]; [discriminate|]. cbn in E. injection E as -> _. inversion Hw as [|x' w' Hx _]; subst. unfold rfc_WSP in Hx. lia.
  - destruct w as [|x w]; [destruct HW as [HW|HW]; [easy|discriminate]|]. cbn in E. injection E as -> _. inversion Hw as [|x' w' Hx _]; subst. unfold rfc_WSP in Hx. lia.
Qed.
Lemma merged_all : forall l, Forall (fun x => fst x = []) l -> fst (merged b l) = [] /\ snd (merged b l) = map snd l.
Proof.
  intros l H. induction H as [|[w p] l Hw H IH]; [split; reflexivity|]. cbn [fst] in Hw. subst w. cbn [merged map snd]. destruct (merged b l). cbn [fst snd] in *. destruct IH as [-> ->]. now rewrite app_nil_r.
Qed.
Lemma merged_none : forall l, Forall (fun x => fst x <> []) l -> snd (merged b l) = [].
Proof.
  intros l H. induction H as [|[[|c w] p] l Hw H IH]; [reflexivity|easy|]. cbn [merged]. destruct (merged b l). exact IH.
Qed.
End boundary.

Lemma body_outcome : forall E b l epi text r x, ~ In 13%N b -> rfc2046_body b l [] (Some epi) text ->
  e_mime_type r = CMultipart -> map_get (e_parameters r) (bs "boundary") = Some b -> e_value r = text ->
  entity E r = Ok x <-> exists es, Forall2 (fun p e => raw_entity E p = Ok e) (snd (merged b l)) es /\ x = EMultipart (e_subtype r) es.
Proof.
  intros E b l epi text r x Hb H HM HB HV. rewrite (entity_multipart_exact E r x HM). pose proof (body_cut b Hb l epi text H) as C. subst text. split.
  - intros (b' & parts & es & HB' & C' & F & ->). rewrite HB in HB'. injection HB' as <-. rewrite (cut_parts_fun _ _ _ _ C' C) in F. eauto.
  - intros (es & F & ->). exists b, (snd (merged b l)), es. auto.
Qed.
Lemma body_refused : forall E b l w e text r, ~ In 13%N b -> rfc2046_body b l w e text -> w <> [] \/ e = None ->
  e_mime_type r = CMultipart -> map_get (e_parameters r) (bs "boundary") = Some b -> e_value r = text -> entity E r = Err (Unknown "closing boundary not found").
Proof.
  intros E b l w e text r Hb H HW HM HB HV. subst text. pose proof (unclosed_parse E b _ _ HB (body_unclosed b Hb _ _ _ _ H HW)) as U. unfold entity. rewrite HM, U. reflexivity.
Qed.
Lemma body_understood : forall E b l epi text r x, ~ In 13%N b -> rfc2046_body b l [] (Some epi) text -> Forall (fun y => fst y = []) l ->
  e_mime_type r = CMultipart -> map_get (e_parameters r) (bs "boundary") = Some b -> e_value r = text ->
  entity E r = Ok x <-> exists es, Forall2 (fun p e => raw_entity E p = Ok e) (map snd l) es /\ x = EMultipart (e_subtype r) es.
Proof. intros E b l epi text r x Hb H HL HM HB HV. rewrite (body_outcome E b l epi text r x Hb H HM HB HV). now rewrite (proj2 (merged_all b l HL)). Qed.
Lemma body_lost : forall E b l epi text r, ~ In 13%N b -> rfc2046_body b l [] (Some epi) text -> Forall (fun y => fst y <> []) l ->
  e_mime_type r = CMultipart -> map_get (e_parameters r) (bs "boundary") = Some b -> e_value r = text -> entity E r = Ok (EMultipart (e_subtype r) []).
Proof.
  intros E b l epi text r Hb H HL HM HB HV. apply (body_outcome E b l epi text r _ Hb H HM HB HV). exists []. rewrite (merged_none b l HL). split; [constructor|reflexivity].
Qed.

(* ---- a nested multipart whose last line is that of the outer delimiter ---- *)
Definition inner_body : bytes := dash_boundary (bs "i") ++ CRLF ++ CRLF ++ bs "x" ++ CRLF ++ dash_boundary (bs "i") ++ bs "--".
Definition outer_part : bytes := bs "Content-Type: multipart/alternative; boundary=i" ++ CRLF ++ CRLF ++ inner_body.
Definition outer_body : bytes := dash_boundary (bs "o") ++ CRLF ++ outer_part ++ CRLF ++ dash_boundary (bs "o") ++ bs "--" ++ CRLF.
Lemma inner_rfc : rfc2046_body (bs "i") [([], CRLF ++ bs "x")] [] None inner_body.
Proof.
  apply (body_start (bs "i") [] (CRLF ++ bs "x") [] [] None (line_delimiter (bs "i") ++ bs "--" ++ [])).
  - constructor; [|constructor]. split; [constructor|]. apply not_occurs. vm_compute. reflexivity.
  - constructor. constructor.
Qed.
Lemma outer_rfc : rfc2046_body (bs "o") [([], outer_part)] [] (Some []) outer_body.
Proof.
  assert (X : outer_body = dash_boundary (bs "o") ++ [] ++ CRLF ++ outer_part ++ encapsulations (bs "o") [] ++ line_delimiter (bs "o") ++ bs "--" ++ [] ++ CRLF ++ []) by reflexivity.
  rewrite X. apply body_start.
  - constructor; [|constructor]. split; [constructor|]. apply not_occurs. vm_compute. reflexivity.
  - apply body_end_epilogue; [constructor|]. apply not_occurs. vm_compute. reflexivity.
Qed.
Lemma nested_refused : exists b b' l l' p text, rfc2046_body b l [] (Some []) text /\ rfc2046_body b' l' [] None p /\ l <> [] /\ l' <> [] /\
  forall E, In E [env_default; env_mime; env_all_debug] -> forall r, e_mime_type r = CMultipart -> map_get (e_parameters r) (bs "boundary") = Some b -> e_value r = text ->
  exists r', entity E r = Ok (EMultipart (e_subtype r) [r']) /\ e_mime_type r' = CMultipart /\ map_get (e_parameters r') (bs "boundary") = Some b' /\ e_value r' = p /\ entity E r' = Err (Unknown "closing boundary not found").
Proof.
  exists (bs "o"), (bs "i"), [([], outer_part)], [([], CRLF ++ bs "x")], inner_body, outer_body. split; [exact outer_rfc|]. split; [exact inner_rfc|]. split; [discriminate|]. split; [discriminate|].
  intros E HE r HM HB HV.
  assert (X : exists r', raw_entity E outer_part = Ok r' /\ e_mime_type r' = CMultipart /\ map_get (e_parameters r') (bs "boundary") = Some (bs "i") /\ e_value r' = inner_body).
  { destruct HE as [<-|[<-|[<-|[]]]]; eexists; (split; [vm_compute; reflexivity|]); (split; [reflexivity|]); split; vm_compute; reflexivity. }
  destruct X as (r' & R & M' & B' & V'). exists r'. split; [|split; [exact M'|]; split; [exact B'|]; split; [exact V'|]].
  - apply (body_outcome E (bs "o") [([], outer_part)] [] outer_body r _ ltac:(vm_compute; intuition discriminate) outer_rfc HM HB HV). exists [r']. split; [|reflexivity]. constructor; [|constructor]. rewrite app_nil_r. exact R.
  - apply (body_refused E (bs "i") _ _ _ _ r' ltac:(vm_compute; intuition discriminate) inner_rfc (or_intror eq_refl) M' B' V').
Qed.

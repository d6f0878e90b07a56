(* Whatever is accepted as a document type declaration is in the grammar of
   LooseDtd.v, and reported as it says. *)
From Verif Require Import Base Utf8 Utf8Proofs Encoding XmlSpec EscapeProofs Scan ScanProofs LexProofs Parser TextProofs Complete Local Counter Loose LooseLex LooseProofs Content TermDtd Doctype DoctypeAttr Grammar LooseDtd LooseModel.
From Coq Require Import ZifyBool.
Local Open Scope Z_scope.

Section S.
Variable E : env.
Hypothesis OK : env_ok E.
Hypothesis NC : forall c, isLetter E c || isDigit E c = true -> xml_char c = true.
Hypothesis OV : forall n l, over E n l = [].
Variable S : Type.
Variable H : handler S.

(* the text t was read and the events evs reported *)
Definition tells (s : pst S) (t : list Z) (evs : list event) (s' : pst S) : Prop :=
  inp s = t ++ inp s' /\ map fst (tr s') = rev evs ++ map fst (tr s) /\ intSubName s' = intSubName s.
Lemma tells_refl : forall s, tells s [] [] s. Proof. intros s. repeat split. Qed.
Lemma tells_trans : forall s t1 e1 s1 t2 e2 s2, tells s t1 e1 s1 -> tells s1 t2 e2 s2 -> tells s (t1 ++ t2) (e1 ++ e2) s2.
Proof.
  intros s t1 e1 s1 t2 e2 s2 (A1 & A2 & A3) (B1 & B2 & B3). split; [rewrite A1, B1, app_assoc; auto|]. split; [|congruence].
  rewrite B2, A2, rev_app_distr, app_assoc. reflexivity.
Qed.
Lemma tells_read : forall (s : pst S) t l, inp s = t ++ l -> tells s t [] (set_inp S l s). Proof. intros s t l Hi. split; [auto|]. split; auto. Qed.
Lemma emit_tells : forall e s u s', emit S H e s = (Ret u, s') -> tells s [] [e] s'.
Proof.
  intros e s u s' Hm. apply wrap_inv in Hm. unfold emit_raw in Hm. destruct (h_event H (hs s) (the_view S s) e) as [h r]. destruct r; inversion Hm; subst; repeat split; auto.
Qed.
Lemma query_tells : forall n s a s', queryEntity S H n s = (Ret a, s') -> tells s [] [] s'.
Proof. intros n s a s' Hm. unfold queryEntity in Hm. destruct (h_getEntity H (hs s) (the_view S s) n) as [h [x err|]]; inversion Hm; subst; repeat split; auto. Qed.
Lemma pquery_tells : forall n s a s', queryPEntity S H n s = (Ret a, s') -> tells s [] [] s'.
Proof. intros n s a s' Hm. unfold queryPEntity in Hm. destruct (h_getPEntity H (hs s) (the_view S s) n) as [h [x err|]]; inversion Hm; subst; repeat split; auto. Qed.
Lemma skip_tells : forall (s : pst S) b s', mskip S s = (Ret b, s') -> exists w, tells s w [] s' /\ blanks w /\ (b = true -> w <> []) /\ s' = set_inp S (inp s') s.
Proof.
  intros s b s' Hm. apply lift_inv in Hm as (l & Hl & ->). apply skip_form in Hl as (w & Hw & Hb & Hn & _). exists w. split; [apply tells_read; auto|]. auto.
Qed.
Lemma skip_blank_tells : forall (s : pst S) b s', mskip S s = (Ret b, s') -> isBlankCh (peek E (inp s)) = true -> exists w, tells s w [] s' /\ blanks w /\ w <> [] /\ s' = set_inp S (inp s') s.
Proof.
  intros s b s' Hm Hp. apply lift_inv in Hm as (l & Hl & ->). apply (skip_blank E OK) in Hl as (w & Hw & Hb & Hn & _); [|auto]. exists w. split; [apply tells_read; auto|]. auto.
Qed.
Lemma name_tells : forall (s : pst S) v s' p, (forall l x l', p l = (Ret x, l') -> parseName E l = (Ret x, l')) -> lift S p s = (Ret v, s') -> exists n z, tells s (n ++ z) [] s' /\ v = utf8 n /\ drop z /\ xname E n.
Proof.
  intros s v s' p Hp Hm. apply lift_inv in Hm as (l & Hl & ->). apply Hp, (xname_form E OK NC OV) in Hl as (n & z & Hi & -> & Hz & Hn). exists n, z. split; [apply tells_read; rewrite Hi, app_assoc; auto|]. auto.
Qed.
Lemma step_tells : forall (s : pst S) u s' c, madvance E S 1 s = (Ret u, s') -> peek E (inp s) = c -> 0 < c < 128 -> tells s [c] [] s'.
Proof. intros s u s' c Hm Hp Hc. apply madvance_form in Hm. apply (peek_is E OK NC) in Hp as [t Ht]; [|lia]. rewrite Ht, advance_1 in Hm. subst s'. apply tells_read. auto. Qed.
Lemma consume_tells : forall p (s : pst S) b s', mconsume S p s = (Ret b, s') -> (b = true /\ tells s p [] s') \/ (b = false /\ s' = s).
Proof. intros p s b s' Hm. apply mconsume_form in Hm as [(-> & l & Hl & ->)|(-> & -> & _)]; [left; split; [auto|apply tells_read; auto]|auto]. Qed.
(* put together what was read so far and the next step *)
Ltac also T N := match type of T with tells ?s ?t1 ?e1 ?s1 => match type of N with tells s1 ?t2 ?e2 ?s2 =>
  let X := fresh in pose proof (tells_trans _ _ _ _ _ _ _ T N) as X; clear T; clear N; rename X into T; cbn [app] in T; rewrite ?app_nil_r in T end end.
Ltac nxt Hm a s1 H1 := apply bind_inv in Hm as (a & s1 & H1 & Hm).
Ltac pk Hm := let c := fresh "c" in let s1 := fresh "s1" in let H1 := fresh "H1" in apply bind_inv in Hm as (c & s1 & H1 & Hm); apply mpeek_form in H1 as [-> ->].

(* an item of the internal subset *)
Definition item (t : list Z) (evs : list event) : Prop := forall r e, ditems E (truthful H) r e -> ditems E (truthful H) (t ++ r) (evs ++ e).
Lemma item_nil : item [] []. Proof. intros r e Hr. exact Hr. Qed.
Lemma item_trans : forall t1 e1 t2 e2, item t1 e1 -> item t2 e2 -> item (t1 ++ t2) (e1 ++ e2).
Proof. intros t1 e1 t2 e2 I1 I2 r e Hr. rewrite <- !app_assoc. apply I1, I2, Hr. Qed.
Lemma item_blanks : forall w, blanks w -> item w [].
Proof. intros w Hw r e Hr. cbn [app]. induction Hw as [|c w Hc _ IH]; [exact Hr|]. cbn [app]. apply it_blank; auto. Qed.

Lemma pe_form : forall s u s', parsePEReference E S H s = (Ret u, s') -> exists t, tells s t [] s' /\ item t [].
Proof.
  intros s u s' Hm. unfold parsePEReference in Hm. pk Hm. destruct (Z.eqb_spec (peek E (inp s)) 37) as [Hq|_]; cbn [negb] in Hm.
  2:{ inversion Hm; subst. exists []. split; [apply tells_refl|apply item_nil]. }
  nxt Hm u1 s1 H1. apply (step_tells _ _ _ 37) in H1; [|auto|lia]. pose proof H1 as T. clear H1.
  nxt Hm v s2 H1. apply name_tells in H1; [|intros l x l'; apply pwrap_inv]. destruct H1 as (n & z & N & -> & Hz & Hn). also T N.
  pk Hm. destruct (Z.eqb_spec (peek E (inp s2)) 59) as [Hq2|_]; [|discriminate]. cbn [negb] in Hm.
  nxt Hm u2 s3 H1. apply (step_tells _ _ _ 59) in H1; [|auto|lia]. also T H1. nxt Hm a s4 H1. apply pquery_tells in H1. also T H1. cbv zeta in Hm.
  nxt Hm sa s5 H1. inversion H1; subst sa s5. clear H1. nxt Hm pe s5 H1. inversion H1; subst pe s5. clear H1.
  assert (L : tells s4 [] [] s').
  { destruct (if snd a then None else fst a); [inversion Hm; subst; repeat split; auto|]. match type of Hm with (if ?b then _ else _) _ = _ => destruct b end; [discriminate|inversion Hm; subst; repeat split; auto]. }
  also T L. exists (37 :: (n ++ z) ++ [59]). split; [exact T|]. intros r e Hr. cbn [app]. rewrite <- !app_assoc. apply (it_pe E _ n z); auto.
Qed.
Lemma pi_tells : forall s u s', parsePI E S H s = (Ret u, s') -> exists t evs, tells s t evs s' /\ item t evs /\ forall r e, lmisc all E r e -> lmisc all E (t ++ r) (evs ++ e).
Proof.
  intros s u s' Hm. unfold parsePI in Hm. apply bind_inv in Hm as ([t d] & s1 & H1 & Hm). apply lift_inv in H1 as (l1 & H1 & ->).
  apply (pi_form E OK NC OV) in H1 as (n & z & Hn & Hz & -> & H1). cbn [fst snd] in Hm. apply emit_tells in Hm.
  assert (Hd : drop z) by (unfold nul in Hz; unfold drop; tauto).
  destruct H1 as [[H1 ->]|(b & x & H1 & B1 & B2 & B3 & ->)].
  - assert (T : tells s (s_ "<?" ++ n ++ z ++ s_ "?>") [] (set_inp S l1 s)) by (apply tells_read; rewrite H1, <- !app_assoc; auto). also T Hm.
    eexists _, _. split; [exact T|]. split; intros r e Hr; rewrite <- !app_assoc; [apply it_pi0|apply lm_pi0]; auto.
  - assert (T : tells s (s_ "<?" ++ n ++ z ++ b ++ x ++ s_ "?>") [] (set_inp S l1 s)) by (apply tells_read; rewrite H1, <- !app_assoc; auto). also T Hm.
    eexists _, _. split; [exact T|]. split; intros r e Hr; rewrite <- !app_assoc; [apply it_pi|apply lm_pi]; auto.
Qed.
Lemma comment_tells : forall s u s', parseComment E S H s = (Ret u, s') -> inp s' = [] \/ exists t evs, tells s t evs s' /\ item t evs /\ forall r e, lmisc all E r e -> lmisc all E (t ++ r) (evs ++ e).
Proof.
  intros s u s' Hm. unfold parseComment in Hm. apply bind_inv in Hm as (v & s1 & H1 & Hm). apply lift_inv in H1 as (l1 & H1 & ->).
  apply (scanComment_form E OK NC OV) in H1. apply emit_tells in Hm.
  destruct H1 as [(b & b' & Hx & B1 & B2 & ->)|[(b & c & Hx & B1 & B2)|(b & Hb & Hx & B1)]].
  - right. assert (T : tells s (s_ "<!--" ++ b ++ s_ "-->") [] (set_inp S l1 s)) by (apply tells_read; rewrite Hx, <- !app_assoc; auto). also T Hm.
    eexists _, _. split; [exact T|]. split; intros r e Hr; rewrite <- !app_assoc; [apply it_comment|apply lm_comment]; auto.
  - right. assert (T : tells s (s_ "<!--" ++ b ++ [c]) [] (set_inp S l1 s)) by (apply tells_read; rewrite Hx, <- !app_assoc; auto). also T Hm.
    eexists _, _. split; [exact T|]. split; intros r e Hr; rewrite <- !app_assoc; [apply it_open|apply lm_open; try exact I]; auto.
  - left. destruct Hm as (Hi & _). cbn [inp set_inp] in Hi. rewrite Hx in Hi. symmetry. exact Hi.
Qed.
Lemma elementDecl_tells : forall n s u s', parseElementDecl E S H n s = (Ret u, s') -> exists t evs, tells s t evs s' /\ item t evs.
Proof.
  intros n s u s' Hm. unfold parseElementDecl in Hm. apply bind_inv in Hm as ([[v typ] m] & s1 & H1 & Hm). apply lift_inv in H1 as (l1 & H1 & ->).
  apply (element_form E OK NC OV) in H1 as (b & nm & z & b' & t & c & Hi & -> & B1 & B2 & Hn & Hz & B3 & B4 & Ht & Hc & Hk). apply emit_tells in Hm.
  assert (T : tells s (s_ "<!ELEMENT" ++ b ++ nm ++ z ++ b' ++ t ++ c ++ [62]) [] (set_inp S l1 s)) by (apply tells_read; rewrite Hi, <- !app_assoc; auto). also T Hm.
  eexists _, _. split; [exact T|]. intros r e Hr. rewrite <- !app_assoc. apply it_element; auto.
Qed.

(* ---- entities ---- *)
Lemma unquoted_tells : forall v s u s', match inp s with [] => True | c :: _ => blank c = false end -> unquotedEntity E S H v s = (Ret u, s') ->
  exists evs, tells s [] evs s' /\ value_text v false evs [].
Proof.
  intros v s u s' Hb Hm. unfold unquotedEntity in Hm. pk Hm. destruct (Z.eqb_spec (peek E (inp s)) 62) as [Hq|_]; cbn [negb andb] in Hm.
  2:{ destruct (isBlankCh (peek E (inp s))) eqn:Hp; [|discriminate]. apply (peek_blank E OK) in Hp as (c & t & Ht & Hc). rewrite Ht in Hb. congruence. }
  apply (peek_is E OK NC) in Hq as [t Ht]; [|lia]. nxt Hm b s1 H1. apply skip_tells in H1 as (w & T & Hw & _ & Hs1).
  assert (Hi : w = [] /\ inp s1 = 62 :: t). { destruct T as (T & _). rewrite Ht in T. destruct w as [|x w]; [auto|]. inversion T; subst x. inversion Hw; discriminate. }
  destruct Hi as [-> Hi]. nxt Hm nd s2 H1. apply consume_tells in H1 as [[-> (N & _)]|[-> ->]]; [rewrite Hi in N; discriminate|].
  apply emit_tells in Hm. also T Hm. eexists. split; [exact T|]. constructor.
Qed.
Lemma mem_in : forall n, xname E n -> mem_byte 58 (utf8 n) = false -> ~ In 58 n.
Proof.
  intros n _ Hm Hi. apply (In_utf8 E NC OV 58) in Hi; [|lia]. unfold mem_byte in Hm. assert (X : existsb (fun c => c =? 58) (utf8 n) = true) by (apply existsb_exists; exists 58; auto).
  congruence.
Qed.
Lemma entity_tells : forall s u s', parseEntityDecl E S H s = (Ret u, s') -> exists t evs, tells s t evs s' /\ item t evs.
Proof.
  intros s u s' Hm. unfold parseEntityDecl in Hm. nxt Hm ok s1 H1. apply consume_tells in H1 as [[-> T]|[-> ->]]; [|discriminate]. cbn [negb] in Hm.
  nxt Hm b s2 H1. apply skip_tells in H1 as (w & N & Hw & Hwn & _). also T N. destruct b; [|discriminate]. cbn [negb] in Hm. specialize (Hwn eq_refl). pk Hm.
  nxt Hm isP s3 H1.
  assert (P : exists a, tells s2 a [] s3 /\ if isP then exists w2, a = [37] ++ w2 /\ blanks w2 /\ w2 <> [] else a = []).
  { destruct (Z.eqb_spec (peek E (inp s2)) 37) as [Hq|_]; [|inversion H1; subst; exists []; split; [apply tells_refl|auto]].
    nxt H1 u1 s4 H2. apply (step_tells _ _ _ 37) in H2; [|auto|lia]. pose proof H2 as T2. clear H2. nxt H1 b2 s5 H2. apply skip_tells in H2 as (w2 & N & Hw2 & Hn2 & _). also T2 N.
    destruct b2; [|discriminate]. inversion H1; subst. eexists. split; [exact T2|]. exists w2. auto. }
  destruct P as (a & N & Ha). also T N. clear H1.
  nxt Hm v s4 H1. apply name_tells in H1; [|intros l x l'; apply pwrap_inv]. destruct H1 as (n & z & N & -> & Hz & Hn). also T N.
  destruct (mem_byte 58 (utf8 n)) eqn:H58; [discriminate|]. apply mem_in in H58; [|auto].
  nxt Hm b3 s5 H1. pose proof H1 as Hnb. apply mskip_form in Hnb as (_ & _ & _ & _ & Hnb). apply skip_tells in H1 as (w3 & N & Hw3 & Hn3 & _). also T N.
  destruct b3; [|discriminate]. cbn [negb] in Hm. specialize (Hn3 eq_refl). pk Hm.
  nxt Hm lit s6 H1.
  (* what follows the value *)
  assert (R : exists c, tells s6 (c ++ [62]) [] s' /\ blanks c).
  { clear H1 T. nxt Hm b4 s7 H1. apply skip_tells in H1 as (c & T & Hc & _ & _). pk Hm. destruct (Z.eqb_spec (peek E (inp s7)) 62) as [Hq|_]; [|discriminate]. cbn [negb] in Hm.
    nxt Hm u2 s8 H1. apply (step_tells _ _ _ 62) in H1; [|auto|lia]. also T H1. nxt Hm e s9 H1.
    assert (N : tells s8 [] [] s9) by (destruct isP; [eapply pquery_tells|eapply query_tells]; eauto). also T N.
    assert (N : tells s9 [] [] s') by (destruct (fst e); inversion Hm; subst; repeat split; auto). also T N. eauto. }
  destruct R as (c & R & Hc). clear Hm.
  assert (V : exists t evs, tells s5 t evs s6 /\ value_text (utf8 n) isP evs t).
  { destruct ((peek E (inp s5) =? 34) || (peek E (inp s5) =? 39)) eqn:Hq.
    - nxt H1 r s7 H2. apply lift_inv in H2 as (l7 & H2 & ->). unfold ptry in H2. destruct (parseEntityValue E (inp s5)) as [o l8] eqn:Hv.
      pose proof (entityValue_form E OK NC OV _ _ _ Hv ltac:(lia)) as (q & lt & rr & Hqq & Hi & Hl & Hnq & Hr & Ho).
      assert (Hl7 : l8 = l7) by (destruct o; inversion H2; auto). subst l8.
      assert (Hr' : rr = q :: l7).
      { destruct Hr as [|[-> Hr]]; [auto|]. exfalso. assert (Hi6 : inp s6 = rr) by (destruct o as [[x y]|e| |]; inversion H2; subst r; [nxt H1 u7 s8 H3; apply emit_tells in H3 as (H3 & _); inversion H1; subst; symmetry; exact H3|inversion H1; subst; reflexivity]).
        destruct R as (R & _). rewrite Hi6 in R. destruct rr as [|x rr]; [destruct c; discriminate|]. destruct c as [|y c]; inversion R; subst; [discriminate|]. inversion Hc; subst. unfold legal, xml_char, blank in *. lia. }
      subst rr. assert (N : tells s5 ([q] ++ lt ++ [q]) [] (set_inp S l7 s5)) by (apply tells_read; rewrite Hi, <- !app_assoc; auto).
      destruct o as [[x y]|e| |]; inversion H2; subst r.
      + nxt H1 u7 s8 H3. apply emit_tells in H3. also N H3. inversion H1; subst s8. destruct Ho as (v & -> & Hv1 & Hv2 & Hv3). eexists _, _. split; [exact N|]. apply en_value; auto.
      + inversion H1; subst. eexists _, _. split; [exact N|]. apply en_dropped; auto.
    - nxt H1 u7 s7 H2. inversion H1; subst lit s6. destruct isP.
      + inversion H2; subst. exists [], []. split; [apply tells_refl|]. constructor.
      + apply unquoted_tells in H2 as (evs & N & Hv); [|auto]. eauto. }
  destruct V as (t & evs & V & Hv). also T V. also T R. eexists _, _. split; [exact T|]. intros r e Hr. destruct isP.
  - destruct Ha as (w2 & -> & Hw2 & Hw2n).
    match goal with |- ditems E (truthful H) ?X _ => assert (Q : X = s_ "<!ENTITY" ++ w ++ [37] ++ w2 ++ n ++ z ++ w3 ++ t ++ c ++ [62] ++ r) end.
    { repeat (rewrite <- ?app_assoc; cbn [app]). reflexivity. } rewrite Q.
    apply it_pentity; auto.
  - subst a. rewrite <- ?app_assoc. cbn [app]. apply it_entity; auto.
Qed.

(* ---- attributes ---- *)
Lemma entityRef_tells : forall s e s', parseEntityRef E S H s = (Ret e, s') -> exists n z, tells s ([38] ++ n ++ z ++ [59]) [] s' /\ xname E n /\ drop z /\
  match predefined (utf8 n) with
  | Some c => e_type e = InternalPredefinedEntity /\ e_content e = c
  | None => truthful H -> e_name e = utf8 n /\ e_type e <> InternalPredefinedEntity
  end.
Proof.
  intros s e s' Hm. unfold parseEntityRef in Hm. pk Hm. destruct (Z.eqb_spec (peek E (inp s)) 38) as [Hq|_]; [|discriminate]. cbn [negb] in Hm.
  nxt Hm u1 s1 H1. apply (step_tells _ _ _ 38) in H1; [|auto|lia]. pose proof H1 as T. clear H1.
  nxt Hm v s2 H1. apply name_tells in H1; [|intros l x l'; apply por_else_inv]. destruct H1 as (n & z & N & -> & Hz & Hn). also T N.
  pk Hm. destruct (Z.eqb_spec (peek E (inp s2)) 59) as [Hq2|_]; [|discriminate]. cbn [negb] in Hm.
  nxt Hm u2 s3 H1. apply (step_tells _ _ _ 59) in H1; [|auto|lia]. also T H1. cbn [app] in T. rewrite <- app_assoc in T.
  enough (N : tells s3 [] [] s' /\ match predefined (utf8 n) with
    | Some c => e_type e = InternalPredefinedEntity /\ e_content e = c
    | None => truthful H -> e_name e = utf8 n /\ e_type e <> InternalPredefinedEntity
    end).
  { destruct N as [N He]. also T N. exists n, z. auto. }
  destruct (predefined (utf8 n)); [inversion Hm; subst; split; [apply tells_refl|auto]|]. nxt Hm a s4 H1. pose proof H1 as Ha. apply query_tells in H1.
  assert (Hk : truthful H -> forall e0, fst a = Some (Real e0) -> e_name e0 = utf8 n /\ e_type e0 <> InternalPredefinedEntity).
  { intros [Tr _] e0 He0. unfold queryEntity in Ha. destruct (h_getEntity H (hs s3) (the_view S s3) (utf8 n)) as [h [x err|]] eqn:Hg; [|discriminate].
    inversion Ha; subst a. cbn [fst] in He0. subst x. eapply Tr. rewrite Hg. reflexivity. }
  destruct (snd a); cbn [negb] in Hm.
  2:{ destruct (fst a) as [[r|]|] eqn:Hf; inversion Hm; subst; auto. }
  nxt Hm me s5 H2. assert (N : tells s4 [] [] s5 /\ (truthful H -> forall e0, me = Some e0 -> e_name e0 = utf8 n /\ e_type e0 <> InternalPredefinedEntity)).
  { destruct (fst a); [inversion H2; subst; split; [apply tells_refl|discriminate]|]. unfold getEntity in H2. destruct (inSubset s4 =? 0); [inversion H2; subst; split; [apply tells_refl|discriminate]|].
    destruct (h_docEntity H (hs s4) (utf8 n)) eqn:Hd; inversion H2; subst. split; [apply tells_refl|]. intros [_ Tr] e0 ->. eapply Tr; eauto. }
  destruct N as [N Hme]. also H1 N. destruct me as [e0|].
  - destruct (e_type e0 =? ExternalGeneralUnparsedEntity); [discriminate|]. destruct (e_type e0 =? ExternalParameterEntity); [discriminate|]. inversion Hm; subst. auto.
  - nxt Hm sa s6 H3. nxt Hm pe s7 H4. destruct ((sa =? StandaloneExplicitYes) || pe); [discriminate|]. nxt Hm sub s8 H5. nxt Hm u3 s9 H6. discriminate.
Qed.
Lemma predefined_kept : forall n, xname E n -> predefined (utf8 n) = None -> ~ In n [s_ "lt"; s_ "gt"; s_ "amp"; s_ "apos"; s_ "quot"].
Proof. intros n _ Hp Hi. cbn [In] in Hi. destruct Hi as [<-|[<-|[<-|[<-|[<-|[]]]]]]; discriminate Hp. Qed.
Lemma attrValue_tells : forall n q b sp k s v s', attrValueLoop E S H n q false b sp k s = (Ret v, s') ->
  inp s' = [] \/ exists lit w, tells s lit [] s' /\ fst v = b ++ w /\ dlit E (truthful H) q lit w.
Proof.
  induction n as [|n IH]; intros q b sp k s v s' Hm; cbn [attrValueLoop] in Hm; [discriminate|]. pk Hm.
  destruct ((peek E (inp s) =? q) || negb (isChar (peek E (inp s))) || (peek E (inp s) =? 60)) eqn:Hstop.
  { right. exists [], []. rewrite andb_false_r in Hm. inversion Hm; subst. split; [apply tells_refl|]. split; [cbn [fst]; rewrite app_nil_r; auto|constructor]. }
  apply orb_false_iff in Hstop as [Hstop H60]. apply orb_false_iff in Hstop as [Hq Hch]. apply negb_false_iff in Hch.
  destruct (peek_legal E OK _ Hch) as (c & t & Ht & Hl). rewrite Ht in Hq, H60, Hm. cbn [peek hd] in Hq, H60, Hm.
  destruct (Z.eqb_spec c 38) as [->|H38].
  - nxt Hm c2 s1 H1. apply mpeekn_form in H1 as [-> ->]. match type of Hm with (if ?b then _ else _) _ = _ => destruct b end.
    + nxt Hm x s1 H1. apply wrap_inv in H1. apply lift_inv in H1 as (l1 & H1 & ->). rewrite Ht in H1. apply (charref_form E OK NC OV) in H1.
      apply IH in Hm as [Hm|(lit & w & T & Hv & Hlit)]; [auto|]. destruct H1 as [->|(t' & Ht' & Hr)].
      { left. destruct T as (T & _). cbn [inp set_inp] in T. symmetry in T. apply app_eq_nil in T. apply T. }
      inversion Ht'; subst t'. clear Ht'. right. apply lref_local in Hr as (w1 & -> & Hr). exists (38 :: w1 ++ lit), ((if x =? 38 then s_ "&#38;" else utf8 [x]) ++ w).
      assert (N : tells s (38 :: w1) [] (set_inp S l1 s)) by (apply tells_read; exact Ht). also N T. split; [exact N|]. split; [|econstructor; [apply Hr|exact Hlit]].
      rewrite Hv, <- app_assoc. unfold utf8. cbn [flat_map]. rewrite app_nil_r. auto.
    + nxt Hm e s1 H1. apply wrap_inv, entityRef_tells in H1 as (nm & z & N & Hn & Hz & He). apply IH in Hm as [Hm|(lit & w & T & Hv & Hlit)]; [auto|]. right. also N T.
      eexists _, _. split; [exact N|]. split; [rewrite Hv, <- app_assoc; reflexivity|]. destruct (predefined (utf8 nm)) as [cont|] eqn:Hp.
      * destruct He as [-> ->]. rewrite Z.eqb_refl. destruct (predefined_names nm cont Hp) as (x & -> & N1 & N2 & N3); [apply Hn|].
        match goal with |- dlit _ _ _ ?A (?B ++ _) => assert (Q1 : A = 38 :: (nm ++ z ++ [59]) ++ lit) by (repeat (rewrite <- ?app_assoc; cbn [app]); reflexivity);
          assert (Q2 : B = if x =? 38 then s_ "&#38;" else utf8 [x]) end.
        { cbn [str_eqb]. rewrite andb_true_r. destruct (x =? 38); [auto|]. unfold predefined in Hp.
          repeat match type of Hp with (if ?b then _ else _) = _ => destruct b; [inversion Hp; reflexivity|] end. discriminate. }
        try rewrite Q1. rewrite Q2. apply dl_cref with (t' := lit); [|auto]. rewrite <- !app_assoc. cbn [app].
        destruct Hz as [->| ->]; [apply lr_plain; auto; apply N3|]. cbn [app]. apply lr_nul; [apply N3|auto|exact I].
      * match goal with |- dlit _ _ _ ?A (?B ++ _) => assert (X : dlit E (truthful H) q ([38] ++ nm ++ z ++ [59] ++ lit) (B ++ w)) end.
        { apply dl_ref; auto; [apply predefined_kept; auto|]. intros Tr. destruct (He Tr) as [-> He2]. destruct (Z.eqb_spec (e_type e) InternalPredefinedEntity); [contradiction|auto]. }
        cbn [app] in X. rewrite <- !app_assoc. exact X.
  - assert (N : forall u s1, madvance E S 1 s = (Ret u, s1) -> tells s [c] [] s1).
    { intros u s1 H1. apply madvance_form in H1. rewrite Ht, advance_1 in H1. subst s1. apply tells_read. auto. }
    match type of Hm with (if ?b then _ else _) _ = _ => destruct b eqn:Hb end; nxt Hm u s1 H1; apply N in H1; apply IH in Hm as [Hm|(lit & w & T & Hv & Hlit)]; auto; right; also H1 T;
      (eexists _, _; split; [exact H1|]).
    + split; [|apply (dl_blank E _ q c lit w); auto; unfold blank; lia]. rewrite Hv, orb_true_r. cbn [negb andb orb]. rewrite <- app_assoc. reflexivity.
    + split; [|apply (dl_char E _ q c lit w); auto; unfold blank; lia]. rewrite Hv, <- app_assoc. unfold utf8. cbn [flat_map]. rewrite app_nil_r. auto.
Qed.
Lemma default_tells : forall n s d v s', parseDefaultDecl E S H n s = (Ret (d, v), s') -> exists t, tells s t [] s' /\ default_text E (truthful H) d v t.
Proof.
  intros n s d v s' Hm. unfold parseDefaultDecl in Hm.
  nxt Hm rq s1 H1. apply consume_tells in H1 as [[-> T]|[-> ->]]; [inversion Hm; subst; exists (s_ "#REQUIRED"); split; [auto|constructor]|].
  nxt Hm im s1 H1. apply consume_tells in H1 as [[-> T]|[-> ->]]; [inversion Hm; subst; exists (s_ "#IMPLIED"); split; [auto|constructor]|].
  nxt Hm fx s1 H1. nxt Hm dty s2 H2.
  assert (P : exists w, tells s w [] s2 /\ ((dty = DefNone /\ w = []) \/ (dty = DefFixed /\ exists b, w = s_ "#FIXED" ++ b /\ b <> [] /\ blanks b))).
  { apply consume_tells in H1 as [[-> T]|[-> ->]]; [|inversion H2; subst; exists []; split; [apply tells_refl|auto]].
    pk H2. destruct (isBlankCh (peek E (inp s1))) eqn:Hb; [|discriminate]. cbn [negb] in H2. nxt H2 u1 s3 H3. apply skip_blank_tells in H3 as (w & N & Hw & Hne & _); [|auto]. also T N.
    inversion H2; subst. exists (s_ "#FIXED" ++ w). split; [auto|]. right. split; [auto|]. exists w. auto. }
  destruct P as (w & T & Hw). clear H1 H2. pk Hm.
  destruct ((peek E (inp s2) =? 34) || (peek E (inp s2) =? 39)) eqn:Hq; [|discriminate]. cbn [negb] in Hm.
  assert (Hq' : peek E (inp s2) = 34 \/ peek E (inp s2) = 39) by lia. clear Hq. remember (peek E (inp s2)) as q eqn:Eq. symmetry in Eq.
  nxt Hm u1 s3 H1. apply (step_tells _ _ _ q) in H1; [|auto|lia]. also T H1. nxt Hm vv s4 H1. apply wrap_inv in H1. unfold parseAttributeValueInternal in H1.
  pk Hm. destruct (Z.eqb_spec (peek E (inp s4)) q) as [Hc|_]; [|discriminate]. cbn [negb] in Hm. apply attrValue_tells in H1 as [H1|(lit & w0 & N & Hv0 & Hlit)].
  { exfalso. apply (peek_is E OK NC) in Hc as [t Hc]; [congruence|lia]. }
  also T N. nxt Hm u2 s5 H1. apply (step_tells _ _ _ q) in H1; [|auto|lia]. also T H1. inversion Hm; subst. rewrite Hv0. cbn [app]. eexists. split; [exact T|].
  destruct Hw as [[-> ->]|(-> & b & -> & Hb1 & Hb2)]; rewrite <- ?app_assoc; cbn [app].
  - apply (df_value E _ _ lit); auto.
  - apply (df_fixed E _ b _ lit); auto.
Qed.
Lemma normal_tokens : forall v w, attrNormalizeSpace v = Ret w -> w = spaced (tokens v).
Proof.
  intros v w Hm. destruct v as [|c v]; [inversion Hm; reflexivity|]. rewrite tokens_words, spaced_join. destruct (words (c :: v)) as [|x l] eqn:Hw.
  - rewrite norm_blank in Hm; [discriminate|discriminate|auto].
  - rewrite norm_words in Hm by (rewrite Hw; discriminate). rewrite Hw in Hm. inversion Hm. auto.
Qed.
Lemma add_tells : forall e a v s u s', addAttributeDefault S H e a v s = (Ret u, s') -> tells s [] [] s'.
Proof.
  intros e a v s u s' Hm. unfold addAttributeDefault in Hm. nxt Hm sp s1 H1. inversion H1; subst s1 sp. clear H1.
  destruct (lookupSpecial _ _); [inversion Hm; subst; apply tells_refl|]. destruct (prefix_local a) as [p l].
  destruct (h_createAttr H (hs s) l p v) as [h o]. destruct o; inversion Hm; subst; repeat split; auto.
Qed.
Lemma attlist_tells : forall n e s u s', attlistLoop E S H n (utf8 e) s = (Ret u, s') ->
  (s' = s /\ exists t, inp s = 62 :: t) \/ exists t evs, tells s (t ++ [62]) evs s' /\ defs_text E (truthful H) e evs t.
Proof.
  induction n as [|n IH]; intros e s u s' Hm; cbn [attlistLoop] in Hm; [discriminate|]. pk Hm.
  destruct (Z.eqb_spec (peek E (inp s)) 62) as [Hq|Hne]; [apply (peek_is E OK NC) in Hq as [t Ht]; [|lia]; inversion Hm; subst; eauto|]. right.
  nxt Hm v s1 H1. apply name_tells in H1; [|intros l x l'; apply por_else_inv]. destruct H1 as (nm & z & T & -> & Hz & Hn).
  pk Hm. destruct (isBlankCh (peek E (inp s1))) eqn:Hb1; [|discriminate]. cbn [negb] in Hm. nxt Hm u1 s2 H1. apply skip_blank_tells in H1 as (b1 & N & Hb11 & Hb12 & _); [|auto]. also T N.
  apply bind_inv in Hm as ([typ enum] & s3 & H1 & Hm). apply lift_inv in H1 as (l3 & H1 & ->). apply pwrap_inv, (type_form E OK NC OV) in H1 as (ns & ty & Hi & -> & Hty). apply (tells_read s2) in Hi. also T Hi.
  pk Hm. destruct (isBlankCh (peek E (inp (set_inp S l3 s2)))) eqn:Hb2; [|discriminate]. cbn [negb] in Hm. nxt Hm u2 s4 H1. apply skip_blank_tells in H1 as (b2 & N & Hb21 & Hb22 & _); [|auto]. also T N.
  apply bind_inv in Hm as ([def dv0] & s5 & H1 & Hm). apply wrap_inv, default_tells in H1 as (w & N & Hd). also T N.
  nxt Hm dv s6 H1. assert (Hs6 : s6 = s5 /\ dv = by_type typ dv0).
  { assert (Hdef : (def =? DefInvalid) = false) by (destruct Hd; reflexivity). rewrite Hdef, andb_true_r in H1. unfold by_type. destruct (typ =? AttrCDATA); cbn [negb] in H1; inversion H1; subst; [auto|].
    split; [auto|]. eapply normal_tokens; eauto. }
  destruct Hs6 as [-> ->]. clear H1.
  pk Hm. nxt Hm u3 s6 H1.
  assert (P : exists b3, tells s5 b3 [] s6 /\ blanks b3 /\ (b3 = [] -> s6 = s5 /\ peek E (inp s5) = 62)).
  { destruct (Z.eqb_spec (peek E (inp s5)) 62) as [Hq|_]; [inversion H1; subst; exists []; split; [apply tells_refl|]; split; [constructor|auto]|].
    destruct (isBlankCh (peek E (inp s5))) eqn:Hb3; [|discriminate]. cbn [negb] in H1. nxt H1 u4 s7 H2. apply skip_blank_tells in H2 as (b3 & N & Hb31 & Hb32 & _); [|auto].
    inversion H1; subst. exists b3. split; [auto|]. split; [auto|]. congruence. }
  destruct P as (b3 & N & Hb31 & Hb32). also T N. clear H1. nxt Hm u4 s7 H1. apply emit_tells in H1. assert (Hi7 : inp s7 = inp s6) by (destruct H1 as (X & _); symmetry; exact X). also T H1.
  nxt Hm u5 s8 H1. assert (N : tells s7 [] [] s8) by (match type of H1 with (if ?b then _ else _) _ = _ => destruct b end; [eapply add_tells; eauto|inversion H1; subst; apply tells_refl]).
  assert (Hi8 : inp s8 = inp s7) by (destruct N as (X & _); symmetry; exact X). also T N. clear H1.
  nxt Hm u6 s9 H1. assert (N : tells s8 [] [] s9) by (inversion H1; subst; repeat split; auto). assert (Hi9 : inp s9 = inp s8) by (destruct N as (X & _); symmetry; exact X). also T N. clear H1.
  pk Hm. destruct (Z.eqb_spec (peek E (inp s9)) 62) as [Hq|Hq].
  - apply (step_tells _ _ _ 62) in Hm; [|auto|lia]. also T Hm. eexists _, _. split; [exact T|]. rewrite <- !app_assoc. apply ad_last; auto.
  - apply IH in Hm as [(-> & t & Ht)|(t & evs & N & Hds)]; [rewrite Ht in Hq; exfalso; apply Hq; reflexivity|]. also T N. rewrite app_assoc in T. eexists _, _. split; [exact T|].
    rewrite <- !app_assoc. apply ad_more; auto. intros ->. destruct Hb32 as [-> Hp]; [auto|]. apply Hq. rewrite Hi9, Hi8, Hi7. exact Hp.
Qed.
Definition stuck (l : list Z) : Prop := l = [] \/ exists t, l = 62 :: t.
Lemma attributes_tells : forall n s u s', parseAttributeListDecl E S H n s = (Ret u, s') -> stuck (inp s') \/ exists t evs, tells s t evs s' /\ item t evs.
Proof.
  intros n s u s' Hm. unfold parseAttributeListDecl in Hm. nxt Hm ok s1 H1. apply consume_tells in H1 as [[-> T]|[-> ->]]; cbn [negb] in Hm.
  2:{ inversion Hm; subst. right. exists [], []. split; [apply tells_refl|apply item_nil]. }
  pk Hm. destruct (isBlankCh (peek E (inp s1))) eqn:Hb1; [|discriminate]. cbn [negb] in Hm. nxt Hm u1 s2 H1. apply skip_blank_tells in H1 as (b & N & Hb2 & Hb3 & _); [|auto]. also T N.
  nxt Hm v s3 H1. apply name_tells in H1; [|intros l x l'; apply pwrap_inv]. destruct H1 as (nm & z & N & -> & Hz & Hn). also T N.
  nxt Hm u2 s4 H1. apply skip_tells in H1 as (b' & N & Hb' & _ & _). also T N. apply attlist_tells in Hm as [(-> & t & Ht)|(t & evs & N & Hds)]; [left; right; eauto|]. right. also T N.
  eexists _, _. split; [exact T|]. intros r e Hr. match goal with |- ditems E (truthful H) ?X _ => assert (Q : X = s_ "<!ATTLIST" ++ b ++ nm ++ z ++ b' ++ t ++ [62] ++ r) end.
  { repeat (rewrite <- ?app_assoc; cbn [app]). reflexivity. } rewrite Q. apply it_attlist; auto.
Qed.

(* ---- the subset ---- *)
Lemma pe_stuck : forall s u s', stuck (inp s) -> parsePEReference E S H s = (Ret u, s') -> stuck (inp s').
Proof.
  intros s u s' Hs Hm. unfold parsePEReference in Hm. pk Hm. destruct (Z.eqb_spec (peek E (inp s)) 37) as [Hq|_]; cbn [negb] in Hm; [|inversion Hm; subst; auto].
  apply (peek_is E OK NC) in Hq as [t Ht]; [|lia]. destruct Hs as [Hs|[t' Hs]]; rewrite Ht in Hs; discriminate.
Qed.
Definition reads (s s' : pst S) : Prop := stuck (inp s') \/ exists t evs, tells s t evs s' /\ item t evs.
Lemma reads_refl : forall s, reads s s. Proof. intros s. right. exists [], []. split; [apply tells_refl|apply item_nil]. Qed.
Lemma reads_pe : forall s s1 u s2, reads s s1 -> parsePEReference E S H s1 = (Ret u, s2) -> reads s s2.
Proof.
  intros s s1 u s2 [Hs|(t & evs & T & Ht)] Hp; [left; eapply pe_stuck; eauto|]. apply pe_form in Hp as (t2 & N & Ht2). also T N. right. eexists _, _. split; [exact T|].
  pose proof (item_trans _ _ _ _ Ht Ht2) as X. rewrite app_nil_r in X. exact X.
Qed.
Lemma markup_reads : forall n s u s', parseMarkupDecl E S H n s = (Ret u, s') -> reads s s'.
Proof.
  intros n s u s' Hm. unfold parseMarkupDecl in Hm. cbv zeta in Hm.
  assert (Hpe : forall s u s', wrap S (parsePEReference E S H) s = (Ret u, s') -> reads s s') by (intros s0 u0 s0' Hp; apply wrap_inv in Hp; eapply reads_pe; [apply reads_refl|eauto]).
  destruct (peek E (inp s) =? 60); [|eapply Hpe; eauto]. destruct (peekn E 2 (inp s) =? 33).
  - nxt Hm u1 s1 H1. apply wrap_inv in Hm. eapply reads_pe; [|exact Hm]. clear Hm.
    repeat match type of H1 with (if ?b then _ else _) _ = _ => destruct b end; try (inversion H1; subst; apply reads_refl); apply wrap_inv in H1.
    + right. eapply elementDecl_tells; eauto.
    + right. eapply entity_tells; eauto.
    + eapply attributes_tells; eauto.
    + apply comment_tells in H1 as [H1|(t & evs & T & Ht & _)]; [left; left; auto|right; eauto].
  - destruct (peekn E 2 (inp s) =? 63); [|eapply Hpe; eauto]. apply pi_tells in Hm as (t & evs & T & Ht & _). right. eauto.
Qed.
Lemma subset_stuck : forall n s u s', stuck (inp s) -> subsetLoop E S H n s = (Ret u, s') -> inp s' = [].
Proof.
  intros n s u s' [Hs|[t Hs]] Hm.
  - destruct n as [|n]; [discriminate|]. cbn [subsetLoop] in Hm. nxt Hm d s1 H1. inversion H1; subst d s1. clear H1. pk Hm. rewrite Hs in Hm. cbn [done orb] in Hm. inversion Hm; subst. auto.
  - exfalso. pose proof (subset_junk E S H 62 t ltac:(lia) ltac:(lia) ltac:(lia) ltac:(reflexivity) n s Hs) as X. rewrite Hm in X. discriminate.
Qed.
Lemma subset_reads : forall n s u s', subsetLoop E S H n s = (Ret u, s') -> inp s' = [] \/ exists t evs, tells s t evs s' /\ ditems E (truthful H) t evs.
Proof.
  induction n as [|n IH]; intros s u s' Hm; [discriminate|]. cbn [subsetLoop] in Hm. nxt Hm d s1 H1. inversion H1; subst d s1. clear H1. pk Hm.
  match type of Hm with (if ?b then _ else _) _ = _ => destruct b end; [inversion Hm; subst; right; exists [], []; split; [apply tells_refl|constructor]|].
  nxt Hm b s1 H1. apply skip_tells in H1 as (w & T & Hw & _ & _). nxt Hm u1 s2 H1. apply wrap_inv, markup_reads in H1. nxt Hm u2 s3 H2. apply wrap_inv in H2. eapply reads_pe in H2; [|exact H1].
  destruct H2 as [H2|(t & evs & N & Ht)]; [left; eapply subset_stuck; eauto|]. apply IH in Hm as [Hm|(t2 & evs2 & N2 & Ht2)]; [auto|]. right. also T N. also T N2.
  eexists _, _. split; [exact T|]. rewrite <- app_assoc. apply (item_blanks w Hw (t ++ t2) (evs ++ evs2)). apply Ht. exact Ht2.
Qed.
Lemma internal_tells : forall n s u s', parseInternalSubset E S H n s = (Ret u, s') -> has_prefix (s_ "[") (inp s) = true ->
  exists t evs b, tells s ([91] ++ t ++ [93] ++ b ++ [62]) evs s' /\ ditems E (truthful H) t evs /\ blanks b.
Proof.
  intros n s u s' Hm Hp. assert (Hi : exists t, inp s = 91 :: t) by (destruct (inp s) as [|c t]; [discriminate|]; change (s_ "[") with [91] in Hp; cbn [has_prefix] in Hp; exists t; f_equal; lia).
  destruct Hi as [t0 Hi]. unfold parseInternalSubset in Hm. pk Hm. rewrite Hi in Hm. cbn [peek hd] in Hm. change (negb (91 =? 91)) with false in Hm. cbv iota in Hm.
  nxt Hm u1 s1 H1. nxt H1 u2 s2 H2. apply (step_tells _ _ _ 91) in H2; [|rewrite Hi; reflexivity|lia]. pose proof H2 as T. clear H2.
  nxt H1 u3 s3 H2. pk H1. pk Hm. destruct (Z.eqb_spec (peek E (inp s1)) 62) as [Hq|_]; [|discriminate]. cbn [negb] in Hm.
  destruct (Z.eqb_spec (peek E (inp s3)) 93) as [Hc|Hc].
  - nxt H1 u4 s4 H3. apply (step_tells _ _ _ 93) in H3; [|auto|lia]. nxt H1 u5 s5 H4. apply skip_tells in H4 as (b & N & Hb & _ & _). inversion H1; subst s5. also H3 N.
    apply (step_tells _ _ _ 62) in Hm; [|auto|lia]. also H3 Hm. apply subset_reads in H2 as [H2|(t & evs & N & Ht)]; [destruct H3 as (X & _); rewrite H2 in X; discriminate|].
    also T N. also T H3. exists t, evs, b. split; [|auto]. cbn [app] in *. repeat (rewrite <- ?app_assoc in *; cbn [app] in * ). exact T.
  - exfalso. inversion H1; subst s3. apply (peek_is E OK NC) in Hq as [t Hq]; [|lia].
    assert (Hend : forall n s u s', subsetLoop E S H n s = (Ret u, s') -> inp s' = [] \/ peek E (inp s') = 93).
    { clear. induction n as [|n IH]; intros s u s' Hm; [discriminate|]. cbn [subsetLoop] in Hm. nxt Hm d s1 H1. inversion H1; subst d s1. clear H1. pk Hm.
      destruct (done (inp s)) eqn:Hd; cbn [orb] in Hm; [inversion Hm; subst; left; destruct (inp s'); [auto|discriminate]|]. destruct (Z.eqb_spec (peek E (inp s)) 93); [inversion Hm; subst; auto|].
      nxt Hm x s1 H1. nxt Hm y s2 H2. nxt Hm w s3 H3. eapply IH; eauto. }
    apply Hend in H2 as [H2|H2]; [congruence|auto].
Qed.
Lemma doctype_tells : forall n s u s', bind S (wrap S (parseDocTypeDecl E S H)) (fun _ => bind S (mhas S (s_ "[")) (fun sub : bool => bind S (if sub then wrap S (parseInternalSubset E S H n) else ret S tt) (fun _ =>
    bind S (modify S (set_inSubset S 2)) (fun _ => bind S (get S intSubName) (fun name => emit S H (EExternalSubset name [] [])))))) s = (Ret u, s') ->
  exists t evs, inp s = t ++ inp s' /\ map fst (tr s') = rev evs ++ map fst (tr s) /\ doctype_text E (truthful H) t evs.
Proof.
  intros n s u s' Hm. nxt Hm u1 s1 H1. apply wrap_inv in H1. unfold parseDocTypeDecl in H1.
  nxt H1 ok s2 H2. apply consume_tells in H2 as [[-> T]|[-> ->]]; [|discriminate]. cbn [negb] in H1. nxt H1 b0 s3 H2. apply skip_tells in H2 as (b & N & Hb & _ & _). also T N.
  nxt H1 v s4 H2. apply name_tells in H2; [|intros l x l'; apply por_else_inv]. destruct H2 as (nm & z & N & -> & Hz & Hn). also T N.
  nxt H1 u2 s5 H2. inversion H2; subst s5. clear H2. set (s5 := set_intSubName S (utf8 nm) s4) in *. nxt H1 b1 s6 H2. apply skip_tells in H2 as (b' & N & Hb' & _ & _).
  nxt H1 u3 s7 H2. apply emit_tells in H2. also N H2. pk H1.
  nxt Hm sub s8 H2. apply mhas_form in H2 as [-> ->]. nxt Hm u4 s8 H2. nxt Hm u5 s9 K3. inversion K3; subst s9. clear K3. nxt Hm nm2 s9 K3. inversion K3; subst nm2 s9. clear K3.
  apply emit_tells in Hm.
  assert (P : exists t evs, tells s7 t evs s8 /\ subset_text E (truthful H) evs t).
  { assert (Hin : forall s t0 s', inp s = t0 -> (if has_prefix (s_ "[") t0 then wrap S (parseInternalSubset E S H n) else ret S tt) s = (Ret u4, s') ->
      (s' = s) \/ exists t evs b, tells s ([91] ++ t ++ [93] ++ b ++ [62]) evs s' /\ ditems E (truthful H) t evs /\ blanks b).
    { intros q t0 q' <- Hq. destruct (has_prefix (s_ "[") (inp q)) eqn:Hp; [|inversion Hq; auto]. apply wrap_inv in Hq. right. eapply internal_tells; eauto. }
    destruct (Z.eqb_spec (peek E (inp s7)) 91) as [Hq|_].
    - inversion H1; subst s1. apply (peek_is E OK NC) in Hq as [t Ht]; [|lia]. assert (Hp : has_prefix (s_ "[") (inp s7) = true) by (rewrite Ht; reflexivity). rewrite Hp in H2.
      apply wrap_inv, internal_tells in H2 as (t' & evs & b2 & T' & Hd & Hb2); [|auto]. eexists _, _. split; [exact T'|]. apply sb_some; auto.
    - destruct (Z.eqb_spec (peek E (inp s7)) 62) as [Hq|_]; [|discriminate]. cbn [negb] in H1. apply (step_tells _ _ _ 62) in H1; [|auto|lia].
      apply (Hin s1) in H2; [|auto]. destruct H2 as [->|(t & evs & b2 & T' & Hd & Hb2)].
      + exists [62], []. split; [exact H1|constructor].
      + also H1 T'. eexists _, _. split; [exact H1|]. apply (sb_late E _ t evs b2); auto. }
  destruct P as (t & evs & P & Hs). also N P.
  exists (s_ "<!DOCTYPE" ++ b ++ nm ++ z ++ b' ++ t), (EInternalSubset (utf8 nm) [] [] :: evs ++ [EExternalSubset (utf8 nm) [] []]).
  destruct T as (T1 & T2 & T3). destruct N as (N1 & N2 & N3). destruct Hm as (M1 & M2 & M3). cbn [inp tr intSubName set_intSubName set_inSubset s5 app] in *.
  split; [rewrite T1, N1, M1; repeat (rewrite <- ?app_assoc; cbn [app]); reflexivity|]. split; [|constructor; auto].
  rewrite M2, N2, T2, N3. cbn [rev app]. rewrite rev_app_distr. cbn [rev app]. rewrite <- ?app_assoc. reflexivity.
Qed.
End S.

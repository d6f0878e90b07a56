(* An accepted document with a document type declaration: what comes before it,
   the declaration itself and what it reports. *)
From Verif Require Import Base Utf8 Utf8Proofs Encoding EncodingProofs XmlSpec EscapeProofs Scan ScanProofs LexProofs Parser Effects DocEffects TextProofs Complete Local Counter Loose LooseLex LooseDecl LooseProofs LooseDoc
  Content TermDtd Grammar LooseDtd LooseModel LooseSubset.
From Coq Require Import ZifyBool.
Local Open Scope Z_scope.

Section S.
Variable E : env.
Hypothesis OK : env_ok E.
Hypothesis NC : forall c, isLetter E c || isDigit E c = true -> xml_char c = true.
Hypothesis OV : forall n l, over E n l = [].
Variable S : Type.
Variable H : handler S.
Notation tells := (tells S).

(* functions that report no declaration *)
Definition plain_events (l : list event) : Prop := Forall (fun e => dtd_event e = false) l.
Definition adds {A} (m : M S A) : Prop := forall s a s', m s = (Ret a, s') -> exists l, map fst (tr s') = rev l ++ map fst (tr s) /\ plain_events l.
Lemma adds_bind : forall A B (m : M S A) (f : A -> M S B), adds m -> (forall a, adds (f a)) -> adds (bind S m f).
Proof.
  intros A B m f Hm Hf s b s' Hb. apply bind_inv in Hb as (a & s1 & H1 & Hb). apply Hm in H1 as (l1 & T1 & P1). apply Hf in Hb as (l2 & T2 & P2).
  exists (l1 ++ l2). split; [rewrite T2, T1, rev_app_distr, app_assoc; auto|]. apply Forall_app. auto.
Qed.
Lemma adds_wrap : forall A (m : M S A), adds m -> adds (wrap S m). Proof. intros A m Hm s a s' Hw. apply wrap_inv in Hw. eauto. Qed.
Lemma adds_lift : forall A (p : P A), adds (lift S p).
Proof. intros A p s a s' Hl. apply lift_inv in Hl as (l & _ & ->). exists []. split; [auto|constructor]. Qed.
Lemma adds_emit : forall e, dtd_event e = false -> adds (emit S H e).
Proof. intros e He s a s' Hm. apply emit_tells in Hm as (_ & Hm & _). exists [e]. split; [auto|]. constructor; [auto|constructor]. Qed.
Lemma adds_eff : forall (T : tkind) A (m : M S A), (forall i evs, T i true evs -> plain_events evs) -> eff T m -> adds m.
Proof.
  intros T A m HT Hm s a s' Hr. destruct (Hm s) as (evs & H1 & H2 & _). rewrite Hr in H1, H2. cbn [fst snd isret] in H1, H2. exists (rev (map fst evs)). split.
  - rewrite H1, map_app, rev_involutive. reflexivity.
  - apply Forall_rev. eapply HT; eauto.
Qed.
Lemma nested_plain : forall evs stk stk', nested stk evs = Some stk' -> plain_events evs.
Proof.
  induction evs as [|e evs IH]; intros stk stk' Hn; [constructor|]. destruct e; cbn [nested] in Hn; cbn [isContent] in Hn; try discriminate; (constructor; [reflexivity|]); try (eapply IH; exact Hn).
  destruct stk as [|top stk]; [discriminate|]. destruct (node_eqb _ _); [|discriminate]. eapply IH; exact Hn.
Qed.
Lemma forest_plain : forall i evs, TForest i true evs -> plain_events evs.
Proof. intros i evs Hf. destruct (Hf []) as (stk & Hn & _). apply nested_plain in Hn. rewrite <- (rev_involutive evs). apply Forall_rev. exact Hn. Qed.
Lemma misc_plain : forall i evs, TAll isMisc i true evs -> plain_events evs.
Proof. intros i evs Hf. unfold TAll in Hf. apply Forall_forall. intros e He. rewrite forallb_forall in Hf. specialize (Hf e He). destruct e; auto; discriminate. Qed.
Lemma adds_misc : forall n, adds (parseMisc E S H n). Proof. intros n. eapply adds_eff; [apply misc_plain|apply eff_misc]. Qed.
Definition body_end (n : nat) : M S unit :=
  bind S (mskip S) (fun _ => bind S (mpeek E S) (fun c => if negb (c =? 60) then failw S "ErrEmptyDocument"
     else bind S (wrap S (parseElement E S H n (parseContent E S H n))) (fun _ => bind S (wrap S (parseMisc E S H n)) (fun _ =>
      bind S (mdone S) (fun fin : bool => if negb fin then failw S "ErrDocumentEnd" else emit S H EEndDocument))))).
Lemma adds_end : forall n, adds (body_end n).
Proof.
  intros n. unfold body_end. apply adds_bind; [apply adds_lift|]. intros _. apply adds_bind; [apply adds_lift|]. intros c. destruct (negb (c =? 60)); [intros s a s' Hx; discriminate|].
  apply adds_bind; [apply adds_wrap; eapply adds_eff; [apply forest_plain|apply eff_element, eff_content]|]. intros _. apply adds_bind; [apply adds_wrap, adds_misc|]. intros _.
  apply adds_bind; [intros s a s' Hx; inversion Hx; subst; exists []; split; [auto|constructor]|]. intros fin. destruct (negb fin); [intros s a s' Hx; discriminate|]. apply adds_emit. reflexivity.
Qed.

Lemma misc_tells : forall n s u s', parseMisc E S H n s = (Ret u, s') -> inp s' = [] \/ exists t evs, tells s t evs s' /\ lmisc all E t evs.
Proof.
  induction n as [|n IH]; intros s u s' Hm; cbn [parseMisc] in Hm; [discriminate|]. apply bind_inv in Hm as (d & s1 & H1 & Hm). inversion H1; subst d s1. clear H1.
  destruct (done (inp s)) eqn:Hd; [inversion Hm; subst; left; destruct (inp s'); [auto|discriminate]|]. cbv zeta in Hm.
  destruct (has_prefix (s_ "<?") (inp s)).
  { apply bind_inv in Hm as (u1 & s1 & H1 & Hm). apply wrap_inv, (pi_tells E OK NC OV) in H1 as (t & evs & T & _ & Ht). apply IH in Hm as [Hm|(t2 & evs2 & T2 & Ht2)]; [auto|]. right.
    exists (t ++ t2), (evs ++ evs2). split; [eapply tells_trans; eauto|auto]. }
  destruct (has_prefix (s_ "<!--") (inp s)).
  { apply bind_inv in Hm as (u1 & s1 & H1 & Hm). apply wrap_inv, (comment_tells E OK NC OV) in H1. apply IH in Hm as [Hm|(t2 & evs2 & T2 & Ht2)]; [auto|]. destruct H1 as [H1|(t & evs & T & _ & Ht)].
    - left. destruct T2 as (T2 & _). rewrite H1 in T2. symmetry in T2. apply app_eq_nil in T2. apply T2.
    - right. exists (t ++ t2), (evs ++ evs2). split; [eapply tells_trans; eauto|auto]. }
  destruct (isBlankCh (peek E (inp s))).
  - apply bind_inv in Hm as (u1 & s1 & H1 & Hm). apply skip_tells in H1 as (w & T & Hw & _ & _). apply IH in Hm as [Hm|(t2 & evs2 & T2 & Ht2)]; [auto|]. right.
    exists (w ++ t2), evs2. split; [change evs2 with ([] ++ evs2); eapply tells_trans; eauto|]. clear T. induction Hw as [|c w Hc _ IHw]; [exact Ht2|]. cbn [app]. apply lm_blank; auto.
  - inversion Hm; subst. right. exists [], []. split; [apply tells_refl|constructor].
Qed.
Lemma misc_events : forall t evs, lmisc all E t evs -> plain_events evs.
Proof. intros t evs Hm. induction Hm; repeat (constructor; [reflexivity|]); auto. constructor. Qed.

Lemma dtd_tells : forall n s u s', parseDTD E S H n s = (Ret u, s') -> exists t devs after later, inp s = t ++ after /\ doctype_text E (truthful H) t devs /\
  map fst (tr s') = rev (devs ++ later) ++ map fst (tr s) /\ plain_events later.
Proof.
  intros n s u s' Hm. unfold parseDTD in Hm. apply bind_inv in Hm as (u1 & s1 & H1 & Hm). injection H1 as _ <-.
  apply bind_inv in Hm as (u2 & s2 & H2 & Hm). apply bind_inv in Hm as (sub & s3 & H3 & Hm). apply bind_inv in Hm as (u4 & s4 & H4 & Hm).
  apply bind_inv in Hm as (u5 & s5 & H5 & Hm). apply bind_inv in Hm as (nm & s6 & H6 & Hm). apply bind_inv in Hm as (u7 & s7 & H7 & Hm).
  assert (Hd : exists t devs, inp s = t ++ inp s7 /\ map fst (tr s7) = rev devs ++ map fst (tr s) /\ doctype_text E (truthful H) t devs).
  { apply (doctype_tells E OK NC OV S H n (set_inSubset S 1 s) u7 s7). unfold bind at 1. rewrite H2. unfold bind at 1. rewrite H3. unfold bind at 1. rewrite H4. unfold bind at 1. rewrite H5. unfold bind at 1. rewrite H6. exact H7. }
  destruct Hd as (t & devs & Hi & Ht & Hdt).
  apply bind_inv in Hm as (u8 & s8 & H8 & Hm). injection H8 as _ <-. apply bind_inv in Hm as (u9 & s9 & H9 & Hm). injection H9 as _ <-.
  apply wrap_inv, adds_misc in Hm as (l & Hl & Hp). exists t, devs, (inp s7), l. split; [auto|]. split; [auto|]. split; [|auto]. rewrite Hl. cbn [tr set_special set_inSubset]. rewrite Ht, rev_app_distr, app_assoc. reflexivity.
Qed.
Lemma rev_plain : forall l evs, rev l = evs -> plain_events evs -> plain_events l. Proof. intros l evs <- Hp. rewrite <- (rev_involutive l). apply Forall_rev. exact Hp. Qed.

Lemma doctype_accepted : forall n h bytes s', Parse E S H n h bytes = (Ret tt, s') -> ~ no_doctype (map fst (tr s')) ->
  exists detected text hdr rest ver enc sa c m t after e1 devs later,
    marked bytes detected text /\ text = hdr ++ rest /\
    ((hdr = [] /\ enc = None /\ sa = None /\ ver = [] /\ has_prefix (s_ "<?xml") rest = false) \/ lheader all hdr ver enc sa) /\
    Load (lower E) (match enc with Some e => e | None => detected end) = Some c /\
    decode E c rest = m ++ t ++ after /\ lmisc all E m e1 /\ doctype_text E (truthful H) t devs /\ plain_events later /\
    rev (map fst (tr s')) = ESetDocumentLocator :: EStartDocument :: e1 ++ devs ++ later.
Proof.
  intros n h bytes s' Hm Hno. unfold Parse, parseDocument in Hm.
  apply bind_inv in Hm as ([] & s1 & H1 & Hm). assert (Hs1 : encoding s1 = []) by (apply wrap_inv in H1; unfold emit_raw in H1; destruct (h_event _ _ _ _) as [? []]; inversion H1; reflexivity).
  apply emit_tells in H1 as (Hi1 & T1 & _). cbn [inp init app] in Hi1.
  apply bind_inv in Hm as (det & s2 & H2 & Hm).
  assert (Hdet : exists text, marked bytes det text /\ s2 = set_inp S text s1).
  { cbv beta in H2. rewrite <- Hi1 in H2. pose proof (detect_marked bytes) as Hd. destruct (detectEncoding bytes) as [[enc r]|]; inversion H2; subst; eexists; (split; [exact Hd|]); auto.
    symmetry. apply set_inp_self. }
  destruct Hdet as (text & Hmark & ->). clear H2.
  apply bind_inv in Hm as (dn & s2 & H2 & Hm). inversion H2; subst dn s2. clear H2. cbn [inp set_inp] in Hm. destruct (done text); [discriminate|].
  apply bind_inv in Hm as (dl & s2 & H2 & Hm). apply mhas_form in H2 as [-> ->]. cbn [inp set_inp] in Hm.
  apply bind_inv in Hm as ([] & s2 & H2 & Hm). apply bind_inv in Hm as ([] & s3 & H3 & Hm). apply wrap_inv in H3.
  apply bind_inv in Hm as ([] & s4 & H4 & Hm).
  assert (Hhdr : exists hdr rest enc sa ver, text = hdr ++ rest /\ ((hdr = [] /\ enc = None /\ sa = None /\ ver = [] /\ has_prefix (s_ "<?xml") rest = false) \/ lheader all hdr ver enc sa) /\
    inp s2 = rest /\ tr s2 = tr s1 /\ encoding s2 = text_of enc).
  { destruct (has_prefix (s_ "<?xml") text) eqn:Hp.
    - apply bind_inv in H2 as (x & s5 & H5 & H2). apply lift_inv in H5 as (l & H5 & ->). apply pwrap_inv in H5. cbn [inp set_inp] in H5.
      apply (xmldecl_form E OK NC OV) in H5 as (hdr & enc & sa & Ht & Hhd & He & Hs). inversion H2; subst s2. exists hdr, l, enc, sa, (xd_version x).
      split; [auto|]. split; [auto|]. cbn [inp tr encoding set_decl set_inp]. auto.
    - inversion H2; subst s2. exists [], text, None, None, []. split; [auto|]. split; [left; auto|]. cbn [inp tr encoding set_inp text_of]. auto. }
  destruct Hhdr as (hdr & rest & enc & sa & ver & Ht & Hhd & Hi2 & T2 & He2).
  unfold switchEncoding in H3. rewrite He2, Hi2 in H3.
  assert (Henc : match text_of enc with [] => det | e => e end = match enc with Some e => e | None => det end).
  { destruct enc as [e|]; [|reflexivity]. cbn [text_of]. destruct Hhd as [(_ & Hx & _)|Hhd]; [discriminate|].
    assert (He : enc_name e) by (inversion Hhd as [h0 v0 e0 sa0 Hx|? ? ? ? ? ? ? ? Hx|? ? ? ? ? ? ? ? ? ? ? Hx|]; subst; auto; inversion Hx; subst; tauto).
    destruct He as (a & r & -> & _). reflexivity. }
  rewrite Henc in H3. destruct (Load (lower E) (match enc with Some e => e | None => det end)) as [cd|] eqn:Hload; [|discriminate]. inversion H3; subst s3. clear H3.
  apply emit_tells in H4 as (Hi4 & T4 & _). cbn [inp tr set_inp app rev] in Hi4, T4. rewrite T2, T1 in T4. cbn [rev app tr init map] in T4.
  apply bind_inv in Hm as ([] & s5 & H5 & Hm). apply wrap_inv in H5. pose proof (adds_misc _ _ _ _ H5) as (l5 & L5 & P5). apply misc_tells in H5.
  apply bind_inv in Hm as (dt & s6 & H6 & Hm). apply mhas_form in H6 as [-> ->]. apply bind_inv in Hm as (u7 & s7 & H7 & Hm). apply (adds_end n) in Hm as (l8 & L8 & P8).
  destruct (has_prefix (s_ "<!DOCTYPE") (inp s5)) eqn:Hdt.
  - destruct H5 as [H5|(m & e1 & (T5 & V5 & _) & Hmi)]; [rewrite H5 in Hdt; discriminate|].
    apply dtd_tells in H7 as (t & devs & after & later & Ht7 & Hd & L7 & P7). exists det, text, hdr, rest, ver, enc, sa, cd, m, t, after, e1, devs, (later ++ l8).
    split; [auto|]. split; [auto|]. split; [auto|]. split; [auto|]. split; [rewrite Hi4, T5, Ht7; auto|]. split; [auto|]. split; [auto|]. split; [apply Forall_app; auto|].
    rewrite L8, L7, V5, T4. rewrite !rev_app_distr, !rev_involutive. cbn [rev app]. rewrite <- !app_assoc. reflexivity.
  - exfalso. inversion H7; subst s7. apply Hno. intros name p u0 Hin. rewrite L8, L5, T4 in Hin.
    assert (Hall : plain_events (rev l8 ++ rev l5 ++ [EStartDocument; ESetDocumentLocator])) by (apply Forall_app; split; [apply Forall_rev; auto|]; apply Forall_app; split; [apply Forall_rev; auto|]; repeat (constructor; [reflexivity|]); constructor).
    unfold plain_events in Hall. rewrite Forall_forall in Hall. apply Hall in Hin. discriminate.
Qed.
End S.

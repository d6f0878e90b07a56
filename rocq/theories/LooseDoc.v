(* Whatever Parse accepts without document type declaration is a document in
   the sense of Loose.v, and the events are the ones that grammar gives. *)
From Verif Require Import Base Utf8 Utf8Proofs Encoding EncodingProofs XmlSpec EscapeProofs Scan ScanProofs LexProofs Parser Effects DocEffects Grammar TextProofs Complete Local Loose LooseLex LooseDecl LooseProofs.
From Coq Require Import ZifyBool.

(* the encoding the first bytes stand for and the text after a mark *)
Definition marked (bytes name text : list Z) : Prop :=
  (exists g, In g signatures /\ starts_with bytes g /\ name = s_ (sig_name g) /\
     (bytes = sig_bytes g ++ text \/ (sig_bom g = false /\ bytes = text))) \/
  ((forall g, In g signatures -> ~ starts_with bytes g) /\ name = s_ "utf8" /\ text = bytes).
Lemma detect_marked : forall bytes, match detectEncoding bytes with Some (name, text) => marked bytes name text | None => marked bytes (s_ "utf8") bytes end.
Proof.
  intros bytes. destruct (detectEncoding bytes) as [[enc r]|] eqn:Hd.
  - left. unfold detectEncoding in Hd.
    repeat match type of Hd with
    | match consume ?p ?s with _ => _ end = _ => let X := fresh in let E0 := fresh in destruct (consume p s) as [X|] eqn:E0; [injection Hd as <- <-; apply consume_some in E0|clear E0]
    | (if has_prefix ?p ?s then _ else _) = _ => let E0 := fresh in destruct (has_prefix p s) eqn:E0; [injection Hd as <- <-; apply has_prefix_true in E0|clear E0]
    end; try discriminate.
    1: exists (sig_of 0). 2: exists (sig_of 1). 3: exists (sig_of 2). 4: exists (sig_of 3). 5: exists (sig_of 4). 6: exists (sig_of 5).
    7: exists (sig_of 6). 8: exists (sig_of 7). 9: exists (sig_of 8). 10: exists (sig_of 9). 11: exists (sig_of 10).
    all: (split; [apply sig_of_in; lia|]).
    all: try (split; [eexists; eassumption|split; [reflexivity|left; assumption]]).
    all: split; [assumption|split; [reflexivity|right; split; reflexivity]].
  - right. split; [|auto]. intros g Hg Hs. destruct (detect_complete _ _ Hg Hs) as [r Hr]. congruence.
Qed.

Section S.
Variable E : env.
Hypothesis OK : env_ok E.
Hypothesis NC : forall c, isLetter E c || isDigit E c = true -> xml_char c = true.
Hypothesis OV : forall n l, over E n l = [].
Variable S : Type.
Variable H : handler S.
Variable good : S -> Prop.
Hypothesis GE : forall h v e, good h -> dtd_event e = false -> good (fst (h_event H h v e)).
Hypothesis GQ : forall h v n, good h -> forall x, snd (h_getEntity H h v n) <> Answer x false.

Definition grows {A} (m : M S A) : Prop := forall s e, In e (map fst (tr s)) -> In e (map fst (tr (snd (m s)))).
Lemma grows_eff : forall T A (m : M S A), eff T m -> grows m.
Proof. intros T A m Hm s e He. destruct (Hm s) as (evs & -> & _). rewrite map_app. apply in_or_app. auto. Qed.
Lemma grows_ret : forall A (m : M S A) s a s' e, grows m -> m s = (Ret a, s') -> In e (map fst (tr s)) -> In e (map fst (tr s')).
Proof. intros A m s a s' e Hm Hr He. specialize (Hm s e He). rewrite Hr in Hm. exact Hm. Qed.
Lemma grows_wrap : forall A (m : M S A), grows m -> grows (wrap S m).
Proof. intros A m Hm s e He. specialize (Hm s e He). unfold wrap. destruct (m s) as [[a|x| |] s1]; exact Hm. Qed.
Lemma grows_emit : forall e, grows (emit S H e).
Proof.
  intros e. apply grows_wrap. intros s x Hx. unfold emit_raw. destruct (h_event H (hs s) (the_view S s) e) as [h r].
  destruct r; cbn [snd tr map fst]; right; exact Hx.
Qed.
Lemma emit_in : forall e s u s', emit S H e s = (Ret u, s') -> In e (map fst (tr s')).
Proof.
  intros e s u s' Hm. apply wrap_inv in Hm. unfold emit_raw in Hm. destruct (h_event H (hs s) (the_view S s) e) as [h r].
  destruct r; inversion Hm; subst; left; reflexivity.
Qed.
Lemma grows_lift : forall A (p : P A), grows (lift S p).
Proof. intros A p s e He. unfold lift. destruct (p (inp s)). exact He. Qed.

(* a document type declaration is announced *)
Lemma parseDTD_announced : forall n s u s', parseDTD E S H n s = (Ret u, s') -> exists name, In (EInternalSubset name [] []) (map fst (tr s')).
Proof.
  intros n s u s' Hm. unfold parseDTD in Hm. apply bind_inv in Hm as (u1 & s1 & _ & Hm). apply bind_inv in Hm as (u2 & s2 & H2 & Hm). apply wrap_inv in H2.
  assert (Hin : exists name, In (EInternalSubset name [] []) (map fst (tr s2))).
  { unfold parseDocTypeDecl in H2. apply bind_inv in H2 as (ok & s3 & _ & H2). destruct (negb ok); [discriminate|].
    apply bind_inv in H2 as (b & s4 & _ & H2). apply bind_inv in H2 as (name & s5 & _ & H2). apply bind_inv in H2 as (x & s6 & _ & H2).
    apply bind_inv in H2 as (y & s7 & _ & H2). apply bind_inv in H2 as (z & s8 & H8 & H2). apply emit_in in H8. exists name.
    apply bind_inv in H2 as (c & s9 & H9 & H2). assert (Hs9 : tr s9 = tr s8) by (apply lift_inv in H9 as (l & _ & ->); reflexivity). rewrite <- Hs9 in H8.
    destruct (c =? 91); [inversion H2; subst; auto|]. destruct (negb (c =? 62)); [discriminate|]. eapply grows_ret; [|exact H2|exact H8]. apply grows_lift. }
  destruct Hin as (name & Hin). exists name.
  apply bind_inv in Hm as (sub & s3 & H3 & Hm). eapply grows_ret in Hin; [|apply grows_lift|exact H3].
  apply bind_inv in Hm as (u4 & s4 & H4 & Hm). assert (Hin4 : In (EInternalSubset name [] []) (map fst (tr s4))).
  { destruct sub; [|inversion H4; subst; auto]. apply wrap_inv in H4. eapply grows_ret; [|exact H4|exact Hin]. eapply grows_eff. apply eff_internalSubset. }
  apply bind_inv in Hm as (u5 & s5 & H5 & Hm). assert (Hin5 : In (EInternalSubset name [] []) (map fst (tr s5))) by (inversion H5; subst; exact Hin4).
  apply bind_inv in Hm as (u6 & s6 & H6 & Hm). assert (Hin6 : In (EInternalSubset name [] []) (map fst (tr s6))) by (inversion H6; subst; exact Hin5).
  apply bind_inv in Hm as (u7 & s7 & H7 & Hm). eapply grows_ret in Hin6; [|apply grows_emit|exact H7].
  apply bind_inv in Hm as (u8 & s8 & H8 & Hm). assert (Hin8 : In (EInternalSubset name [] []) (map fst (tr s8))) by (inversion H8; subst; exact Hin6).
  apply bind_inv in Hm as (u9 & s9 & H9 & Hm). assert (Hin9 : In (EInternalSubset name [] []) (map fst (tr s9))) by (inversion H9; subst; exact Hin8).
  apply wrap_inv in Hm. eapply grows_ret; [|exact Hm|exact Hin9]. eapply grows_eff. apply eff_misc.
Qed.

Definition no_doctype (evs : list event) : Prop := forall name p u, ~ In (EInternalSubset name p u) evs.

Lemma body_form : forall n s s', calm S good s -> nsTab s = [] ->
  bind S (wrap S (parseMisc E S H n)) (fun _ =>
    bind S (mhas S (s_ "<!DOCTYPE")) (fun dt : bool => bind S (if dt then parseDTD E S H n else ret S tt) (fun _ =>
     bind S (mskip S) (fun _ => bind S (mpeek E S) (fun c => if negb (c =? 60) then failw S "ErrEmptyDocument"
     else bind S (wrap S (parseElement E S H n (parseContent E S H n))) (fun _ => bind S (wrap S (parseMisc E S H n)) (fun _ =>
      bind S (mdone S) (fun fin : bool => if negb fin then failw S "ErrDocumentEnd" else emit S H EEndDocument)))))))) s = (Ret tt, s') ->
  no_doctype (map fst (tr s')) -> exists evs d, lbody all E (inp s) evs d /\ goes S good s (evs ++ [EEndDocument]) s'.
Proof.
  intros n s s' Hc Hns Hm Hno.
  apply bind_inv in Hm as ([] & s1 & H1 & Hm). apply wrap_inv in H1. apply (misc_form E OK NC OV S H good GE) in H1; [|auto].
  destruct H1 as (m1 & z1 & e1 & e1' & Hi1 & Hm1 & Hz1 & Hend1 & Hg1 & Hns1).
  apply bind_inv in Hm as (dt & s2 & H2 & Hm). apply mhas_form in H2 as [-> ->].
  apply bind_inv in Hm as (u & s2 & H2 & Hm).
  apply bind_inv in Hm as (b & s3 & H3 & Hm). apply bind_inv in Hm as (c & s4 & H4 & Hm). apply mpeek_form in H4 as [-> ->].
  destruct (Z.eqb_spec (peek E (inp s3)) 60) as [H60|]; [|discriminate]. cbn [negb] in Hm.
  apply bind_inv in Hm as ([] & s4 & H4 & Hm). apply wrap_inv in H4.
  apply bind_inv in Hm as ([] & s5 & H5 & Hm). apply wrap_inv in H5.
  apply bind_inv in Hm as (fin & s6 & H6 & Hm). inversion H6; subst fin s6. clear H6.
  destruct (done (inp s5)) eqn:Hdone; [|discriminate]. cbn [negb] in Hm.
  assert (Hdt : has_prefix (s_ "<!DOCTYPE") (inp s1) = false).
  { apply not_true_is_false. intros Hdt. rewrite Hdt in H2. apply parseDTD_announced in H2 as (name & Hin).
    apply (Hno name [] []). eapply grows_ret; [|exact Hm|]; [apply grows_emit|]. eapply grows_ret; [|exact H5|]; [eapply grows_eff; apply eff_misc|].
    eapply grows_ret; [|exact H4|]; [eapply grows_eff; apply eff_element; apply eff_content|]. eapply grows_ret; [|exact H3|exact Hin]. apply grows_lift. }
  rewrite Hdt in H2. inversion H2; subst s2. clear H2.
  apply mskip_form in H3 as (w & Hw & Hbw & Hs3 & _). apply (peek_is E OK NC) in H60 as [t Ht]; [|lia].
  assert (z1 = []). { destruct z1 as [|x z1]; [auto|]. rewrite Hend1 in Hw by discriminate. rewrite Ht in Hw. destruct w; discriminate. } subst z1.
  assert (e1' = []) by (inversion Hz1; auto). subst e1'. rewrite app_nil_r in Hg1.
  assert (Hc1 : calm S good s1) by apply Hg1.
  apply (element_form E OK NC OV S H good GE GQ) in H4; [|apply (content_form E OK NC OV S H good GE GQ)|rewrite Hs3; exact Hc1].
  destruct H4 as (x & e2 & d & Hi4 & Hel & Hg4). specialize (Hel []).
  apply (misc_form E OK NC OV S H good GE) in H5; [|apply Hg4]. destruct H5 as (m2 & z & e3 & e4 & Hi5 & Hm2 & Hz & Hend & Hg5 & _).
  apply (emit_form S H good GE) in Hm; [|apply Hg5|reflexivity]. destruct Hm as (Hg6 & _ & _).
  assert (Hi5' : inp s5 = []) by (destruct (inp s5); [auto|discriminate]). rewrite Hi5', app_nil_r in Hi5.
  exists (e1 ++ e2 ++ e3 ++ e4), d. split.
  - rewrite Hi1, Hw, Hi4, Hi5. cbn [app]. rewrite app_assoc. rewrite Hs3 in Hel. cbn [nsTab set_inp] in Hel. rewrite Hns1, Hns in Hel. cbn [rev] in Hel.
    econstructor; [|exact Hel|exact Hm2|exact Hz]. clear - Hm1 Hbw. induction Hm1; cbn [app].
    + induction w as [|c w IHw]; [constructor|]. inversion Hbw; subst. apply lm_blank; auto.
    + apply lm_blank; auto.
    + rewrite <- !app_assoc. apply lm_comment; auto.
    + rewrite <- !app_assoc. cbn [app]. apply lm_open; auto.
    + rewrite <- !app_assoc. apply lm_pi0; auto.
    + rewrite <- !app_assoc. apply lm_pi; auto.
  - rewrite Hs3 in Hg4. rewrite <- !app_assoc. eapply goes_trans; [exact Hg1|]. eapply goes_trans; [exact Hg4|].
    rewrite app_assoc. eapply goes_trans; [exact Hg5|exact Hg6].
Qed.

Definition text_of (o : option str) : str := match o with Some n => n | None => [] end.
(* a document as bytes: encoding mark, XML declaration, text; [detected] is
   the encoding its first bytes stand for *)
Lemma accepted_is_loose : forall n h bytes s', good h -> Parse E S H n h bytes = (Ret tt, s') -> no_doctype (map fst (tr s')) ->
  exists detected text hdr rest enc sa c evs d,
    marked bytes detected text /\ text = hdr ++ rest /\
    ((hdr = [] /\ enc = None /\ sa = None /\ version s' = [] /\ has_prefix (s_ "<?xml") rest = false) \/ lheader all hdr (version s') enc sa) /\
    Load (lower E) (match enc with Some e => e | None => detected end) = Some c /\
    lbody all E (decode E c rest) evs d /\
    encoding s' = text_of enc /\ standalone s' = sa_of sa /\
    rev (map fst (tr s')) = ESetDocumentLocator :: EStartDocument :: evs ++ [EEndDocument].
Proof.
  intros n h bytes s' Hh Hm Hno. unfold Parse, parseDocument in Hm.
  apply bind_inv in Hm as ([] & s1 & H1 & Hm). apply (emit_form S H good GE) in H1; [|repeat split; auto|reflexivity].
  destruct H1 as (Hg1 & Hi1 & Hns1). cbn [inp nsTab init] in Hi1, Hns1.
  apply bind_inv in Hm as (det & s2 & H2 & Hm).
  assert (Hdet : exists text, marked bytes det text /\ s2 = set_inp S text s1).
  { cbv beta in H2. rewrite Hi1 in H2. pose proof (detect_marked bytes) as Hd. destruct (detectEncoding bytes) as [[enc r]|]; inversion H2; subst; eexists; (split; [exact Hd|]); auto.
    symmetry. apply set_inp_self. }
  destruct Hdet as (text & Hmark & ->). clear H2.
  apply bind_inv in Hm as (dn & s2 & H2 & Hm). inversion H2; subst dn s2. clear H2. cbn [inp set_inp] in Hm. destruct (done text); [discriminate|].
  apply bind_inv in Hm as (dl & s2 & H2 & Hm). apply mhas_form in H2 as [-> ->]. cbn [inp set_inp] in Hm.
  apply bind_inv in Hm as ([] & s2 & H2 & Hm). apply bind_inv in Hm as ([] & s3 & H3 & Hm). apply wrap_inv in H3.
  apply bind_inv in Hm as ([] & s4 & H4 & Hm).
  assert (Hhdr : exists hdr rest enc sa ver, text = hdr ++ rest /\ ((hdr = [] /\ enc = None /\ sa = None /\ ver = [] /\ has_prefix (s_ "<?xml") rest = false) \/ lheader all hdr ver enc sa) /\
    s2 = set_decl S ver (text_of enc) (sa_of sa) (set_inp S rest s1)).
  { destruct (has_prefix (s_ "<?xml") text) eqn:Hp.
    - apply bind_inv in H2 as (x & s5 & H5 & H2). apply lift_inv in H5 as (l & H5 & ->). apply pwrap_inv in H5. cbn [inp set_inp] in H5.
      apply (xmldecl_form E OK NC OV) in H5 as (hdr & enc & sa & Ht & Hhd & He & Hs). inversion H2; subst s2. exists hdr, l, enc, sa, (xd_version x).
      split; [auto|]. split; [auto|]. rewrite He, Hs. reflexivity.
    - inversion H2; subst s2. exists [], text, None, None, []. split; [auto|]. split; [left; auto|].
      destruct Hg1 as (_ & _ & _ & G1 & G2 & G3). clear - G1 G2 G3. destruct s1. cbn in *. subst. reflexivity. }
  destruct Hhdr as (hdr & rest & enc & sa & ver & Ht & Hhd & ->).
  unfold switchEncoding in H3. cbn [encoding set_decl inp set_inp] in H3.
  assert (Henc : match text_of enc with [] => det | e => e end = match enc with Some e => e | None => det end).
  { destruct enc as [e|]; [|reflexivity]. cbn [text_of]. destruct Hhd as [(_ & Hx & _)|Hhd]; [discriminate|].
    assert (He : enc_name e) by (inversion Hhd as [h0 v0 e0 sa0 Hx|? ? ? ? ? ? ? ? Hx|? ? ? ? ? ? ? ? ? ? ? Hx|]; subst; auto; inversion Hx; subst; tauto).
    destruct He as (a & r & -> & _). reflexivity. }
  rewrite Henc in H3. destruct (Load (lower E) (match enc with Some e => e | None => det end)) as [cd|] eqn:Hload; [|discriminate]. inversion H3; subst s3. clear H3.
  apply (emit_form S H good GE) in H4; [|destruct Hg1 as (_ & _ & (C1 & C2 & C3 & C4) & _); repeat split; auto|reflexivity]. destruct H4 as (Hg4 & Hi4 & Hns4). cbn [inp nsTab set_inp set_decl] in Hi4, Hns4.
  apply body_form in Hm; [|apply Hg4|congruence|auto]. destruct Hm as (evs & d & Hb & Hg5). rewrite Hi4 in Hb.
  destruct Hg1 as (T1 & _). destruct Hg4 as (T4 & _ & _ & V4 & N4 & S4). destruct Hg5 as (T5 & _ & _ & V5 & N5 & S5).
  cbn [version encoding standalone set_inp set_decl] in V4, N4, S4.
  exists det, text, hdr, rest, enc, sa, cd, evs, d. rewrite V5, V4, N5, N4, S5, S4.
  split; [auto|]. split; [auto|]. split; [auto|]. split; [auto|]. split; [auto|]. split; [auto|]. split; [auto|].
  rewrite T5, T4. cbn [tr set_inp set_decl]. rewrite T1. cbn [tr init map app rev]. rewrite !rev_app_distr, rev_involutive. cbn [rev app]. reflexivity.
Qed.
End S.

(* Two handlers that answer alike drive the parser alike: the parser depends
   on its handler only through what the handler answers, and does not tell nil
   from ErrHandlerUnspecified. *)
From Verif Require Import Base Utf8 Encoding Scan Parser.

Definition rsim (a b : hres) : Prop :=
  match a, b with
  | (HNil | HUnspec), (HNil | HUnspec) => True
  | HError j, HError k => j = k
  | HPanic, HPanic => True
  | _, _ => False
  end.

Record hsim {S1 S2} (R : S1 -> S2 -> Prop) (H1 : handler S1) (H2 : handler S2) : Prop := {
  hs_event : forall a b v e, R a b ->
    R (fst (h_event H1 a v e)) (fst (h_event H2 b v e)) /\ rsim (snd (h_event H1 a v e)) (snd (h_event H2 b v e));
  hs_entity : forall a b v n, R a b ->
    R (fst (h_getEntity H1 a v n)) (fst (h_getEntity H2 b v n)) /\ snd (h_getEntity H1 a v n) = snd (h_getEntity H2 b v n);
  hs_pentity : forall a b v n, R a b ->
    R (fst (h_getPEntity H1 a v n)) (fst (h_getPEntity H2 b v n)) /\ snd (h_getPEntity H1 a v n) = snd (h_getPEntity H2 b v n);
  hs_orig : forall a b e l, R a b -> R (h_setOrig H1 a e l) (h_setOrig H2 b e l);
  hs_mixed : forall a b n, R a b -> h_mixed H1 a n = h_mixed H2 b n;
  hs_doc : forall a b n, R a b -> h_docEntity H1 a n = h_docEntity H2 b n;
  hs_attr : forall a b l p v, R a b ->
    R (fst (h_createAttr H1 a l p v)) (fst (h_createAttr H2 b l p v)) /\ snd (h_createAttr H1 a l p v) = snd (h_createAttr H2 b l p v);
  hs_enter : forall a b, R a b -> R (h_chunkEnter H1 a) (h_chunkEnter H2 b);
  hs_leave : forall a b a' b', R a b -> R a' b' -> R (h_chunkLeave H1 a a') (h_chunkLeave H2 b b')
}.

Section Sim.
Variables S1 S2 : Type.
Variable R : S1 -> S2 -> Prop.
Variable E : env.
Variable H1 : handler S1.
Variable H2 : handler S2.
Hypothesis HS : hsim R H1 H2.

Record ssim (a : pst S1) (b : pst S2) : Prop := {
  ss_inp : inp a = inp b; ss_ns : nsTab a = nsTab b; ss_node : nodeTab a = nodeTab b;
  ss_special : attsSpecial a = attsSpecial b; ss_default : attsDefault a = attsDefault b;
  ss_pe : hasPERefs a = hasPERefs b; ss_depth : depth a = depth b; ss_sub : inSubset a = inSubset b;
  ss_version : version a = version b; ss_encoding : encoding a = encoding b; ss_standalone : standalone a = standalone b;
  ss_name : intSubName a = intSubName b; ss_hs : R (hs a) (hs b);
  ss_tr : Forall2 (fun x y => fst x = fst y /\ rsim (snd x) (snd y)) (tr a) (tr b)
}.

Definition msim {A} (m1 : M S1 A) (m2 : M S2 A) : Prop := forall a b, ssim a b ->
  fst (m1 a) = fst (m2 b) /\ ssim (snd (m1 a)) (snd (m2 b)).

Lemma msim_ret : forall A (x : A), msim (ret _ x) (ret _ x). Proof. intros A x a b Hs; split; auto. Qed.
Lemma msim_fail : forall A e, msim (@fail _ A e) (fail _ e). Proof. intros A x a b Hs; split; auto. Qed.
Lemma msim_failw : forall A e, msim (@failw _ A e) (failw _ e). Proof. intros A x a b Hs; split; auto. Qed.
Lemma msim_pan : forall A, msim (@pan _ A) (pan _). Proof. intros A a b Hs; split; auto. Qed.
Lemma msim_oof : forall A, msim (@oof _ A) (oof _). Proof. intros A a b Hs; split; auto. Qed.
Lemma msim_mlift : forall A (o : outcome gerr A), msim (mlift _ o) (mlift _ o). Proof. intros A o a b Hs; split; auto. Qed.
Lemma msim_bind : forall A B (m1 : M S1 A) m2 (f1 : A -> M S1 B) f2, msim m1 m2 -> (forall x, msim (f1 x) (f2 x)) ->
  msim (bind _ m1 f1) (bind _ m2 f2).
Proof.
  intros A B m1 m2 f1 f2 Hm Hf a b Hs. destruct (Hm a b Hs) as [E1 E2]. unfold bind.
  destruct (m1 a) as [o1 a'], (m2 b) as [o2 b']. simpl in *. subst o2. destruct o1; simpl; auto. apply Hf; auto.
Qed.
Lemma msim_wrap : forall A (m1 : M S1 A) m2, msim m1 m2 -> msim (wrap _ m1) (wrap _ m2).
Proof.
  intros A m1 m2 Hm a b Hs. destruct (Hm a b Hs) as [E1 E2]. unfold wrap.
  destruct (m1 a) as [o1 a'], (m2 b) as [o2 b']. simpl in *. subst o2. destruct o1; simpl; auto.
Qed.
Lemma ssim_inp : forall l a b, ssim a b -> ssim (set_inp _ l a) (set_inp _ l b).
Proof. intros l a b []; constructor; auto. Qed.
Lemma msim_always : forall A (m1 : M S1 A) m2 c, msim m1 m2 -> msim (always _ m1 c) (always _ m2 c).
Proof.
  intros A m1 m2 c Hm a b Hs. destruct (Hm a b Hs) as [E1 E2]. unfold always.
  destruct (m1 a) as [o1 a'], (m2 b) as [o2 b']. simpl in *. subst o2. destruct o1; simpl; auto;
  rewrite (ss_inp _ _ E2); split; auto using ssim_inp.
Qed.
Lemma msim_lift : forall A (p : P A), msim (lift _ p) (lift _ p).
Proof.
  intros A p a b Hs. unfold lift. rewrite (ss_inp _ _ Hs). destruct (p (inp b)); simpl; auto using ssim_inp.
Qed.
Lemma msim_get : forall A (f : pst S1 -> A) g, (forall a b, ssim a b -> f a = g b) -> msim (get _ f) (get _ g).
Proof. intros A f g Hf a b Hs; split; simpl; auto. rewrite (Hf a b Hs); auto. Qed.
Lemma msim_modify : forall f g, (forall a b, ssim a b -> ssim (f a) (g b)) -> msim (modify _ f) (modify _ g).
Proof. intros f g Hf a b Hs; split; simpl; auto. Qed.
Lemma view_sim : forall a b, ssim a b -> the_view _ a = the_view _ b.
Proof. intros a b []; unfold the_view; congruence. Qed.
Lemma msim_emit_raw : forall e, msim (emit_raw _ H1 e) (emit_raw _ H2 e).
Proof.
  intros e a b Hs. unfold emit_raw. rewrite (view_sim _ _ Hs).
  destruct (hs_event _ _ _ HS _ _ (the_view S2 b) e (ss_hs _ _ Hs)) as [Hr Hq].
  destruct (h_event H1 _ _ e) as [x r], (h_event H2 _ _ e) as [y r']. simpl in *.
  assert (ssim (add_event _ x (e, r) a) (add_event _ y (e, r') b)).
  { destruct Hs; constructor; auto. simpl. constructor; auto. }
  destruct r, r'; simpl in *; try tauto; subst; auto.
Qed.
Lemma msim_emit : forall e, msim (emit _ H1 e) (emit _ H2 e).
Proof. intros; apply msim_wrap, msim_emit_raw. Qed.
Lemma ssim_hs : forall a b x y, ssim a b -> R x y -> ssim (set_hs _ x a) (set_hs _ y b).
Proof. intros a b x y [] Hr; constructor; auto. Qed.
Lemma msim_queryE : forall n, msim (queryEntity _ H1 n) (queryEntity _ H2 n).
Proof.
  intros n a b Hs. unfold queryEntity. rewrite (view_sim _ _ Hs).
  destruct (hs_entity _ _ _ HS _ _ (the_view S2 b) n (ss_hs _ _ Hs)) as [Hr Hq].
  destruct (h_getEntity H1 _ _ n) as [x r], (h_getEntity H2 _ _ n) as [y r']. simpl in *. subst.
  destruct r'; simpl; auto using ssim_hs.
Qed.
Lemma msim_queryP : forall n, msim (queryPEntity _ H1 n) (queryPEntity _ H2 n).
Proof.
  intros n a b Hs. unfold queryPEntity. rewrite (view_sim _ _ Hs).
  destruct (hs_pentity _ _ _ HS _ _ (the_view S2 b) n (ss_hs _ _ Hs)) as [Hr Hq].
  destruct (h_getPEntity H1 _ _ n) as [x r], (h_getPEntity H2 _ _ n) as [y r']. simpl in *. subst.
  destruct r'; simpl; auto using ssim_hs.
Qed.
Lemma msim_getEntity : forall n, msim (getEntity _ H1 n) (getEntity _ H2 n).
Proof.
  intros n a b Hs. unfold getEntity. rewrite (ss_sub _ _ Hs), (hs_doc _ _ _ HS _ _ n (ss_hs _ _ Hs)).
  destruct (_ =? 0); simpl; auto. destruct (h_docEntity _ _ _); simpl; auto.
Qed.
Lemma msim_areBlanks : forall t, msim (areBlanks E _ H1 t) (areBlanks E _ H2 t).
Proof.
  intros t a b Hs. unfold areBlanks. simpl. split; auto. rewrite (ss_node _ _ Hs), (ss_inp _ _ Hs).
  destruct (negb _); auto. destruct (nodeTab b); auto. rewrite (hs_mixed _ _ _ HS _ _ _ (ss_hs _ _ Hs)); auto.
Qed.
End Sim.

Arguments msim {S1 S2} R {A} m1 m2.
Arguments ssim {S1 S2} R a b.

Create HintDb sim.
Global Hint Resolve msim_ret msim_fail msim_failw msim_pan msim_oof msim_mlift msim_lift msim_emit_raw msim_emit msim_queryE
  msim_queryP msim_getEntity msim_areBlanks : sim.
Global Hint Extern 2 (msim _ (mpeek _ _) _) => apply msim_lift : sim.
Global Hint Extern 2 (msim _ (mpeekn _ _ _) _) => apply msim_lift : sim.
Global Hint Extern 2 (msim _ (madvance _ _ _) _) => apply msim_lift : sim.
Global Hint Extern 2 (msim _ (mhas _ _) _) => apply msim_lift : sim.
Global Hint Extern 2 (msim _ (mconsume _ _) _) => apply msim_lift : sim.
Global Hint Extern 2 (msim _ (mskip _) _) => apply msim_lift : sim.
Lemma same_length : forall A B (R : A -> B -> Prop) l l', Forall2 R l l' -> List.length l = List.length l'.
Proof. induction 1; simpl; congruence. Qed.
Ltac fields := let a := fresh in let b := fresh in let q := fresh in intros a b q; destruct q;
  try match goal with H : Forall2 _ (tr a) _ |- _ => rewrite ?(same_length _ _ _ _ _ H) end;
  first [ solve [auto] | solve [repeat match goal with H : ?f a = _ |- _ => rewrite H end; reflexivity]
        | solve [constructor; simpl; auto; congruence] ].
Global Hint Extern 2 (msim _ (get _ _) _) => apply msim_get; fields : sim.
Global Hint Extern 2 (msim _ (mdone _) _) => apply msim_get; fields : sim.
Global Hint Extern 2 (msim _ (modify _ _) _) => apply msim_modify; fields : sim.
Ltac simstep :=
  match goal with
  | |- forall _, _ => intro
  | |- msim _ (bind _ _ _) _ => apply msim_bind
  | |- msim _ (wrap _ _) _ => apply msim_wrap
  | |- msim _ (always _ _ _) _ => apply msim_always
  | |- msim _ (if ?b then _ else _) _ => destruct b
  | |- msim _ (match ?x with _ => _ end) _ => destruct x
  | |- msim _ (let _ := _ in _) _ => cbv zeta
  end.
Ltac simauto := repeat (first [ solve [eauto with sim] | simstep ]).

Section Funs.
Variables S1 S2 : Type.
Variable R : S1 -> S2 -> Prop.
Variable E : env.
Variable H1 : handler S1.
Variable H2 : handler S2.
Hypothesis HS : hsim R H1 H2.

Lemma sim_PI : msim R (parsePI E _ H1) (parsePI E _ H2). Proof. unfold parsePI. simauto. Qed.
Lemma sim_comment : msim R (parseComment E _ H1) (parseComment E _ H2). Proof. unfold parseComment. simauto. Qed.
Lemma sim_charData : forall c, msim R (parseCharData E _ H1 c) (parseCharData E _ H2 c). Proof. intros; unfold parseCharData. simauto. Qed.
Hint Resolve sim_PI sim_comment sim_charData : sim.
Lemma sim_CDSect : msim R (parseCDSect E _ H1) (parseCDSect E _ H2). Proof. unfold parseCDSect. simauto. Qed.
Lemma sim_entityRef : msim R (parseEntityRef E _ H1) (parseEntityRef E _ H2). Proof. unfold parseEntityRef. simauto. Qed.
Hint Resolve sim_CDSect sim_entityRef : sim.
Lemma sim_attrValueLoop : forall n q nm b sp en, msim R (attrValueLoop E _ H1 n q nm b sp en) (attrValueLoop E _ H2 n q nm b sp en).
Proof. induction n; intros; [simpl; eauto with sim|]. cbn [attrValueLoop]. simauto. Qed.
Hint Resolve sim_attrValueLoop : sim.
Lemma sim_attributeValue : forall n nm, msim R (parseAttributeValue E _ H1 n nm) (parseAttributeValue E _ H2 n nm).
Proof. intros; unfold parseAttributeValue, parseAttributeValueInternal. simauto. Qed.
Hint Resolve sim_attributeValue : sim.
Lemma sim_attribute : forall n nm, msim R (parseAttribute E _ H1 n nm) (parseAttribute E _ H2 n nm).
Proof. intros; unfold parseAttribute. simauto. Qed.
Lemma sim_afterNS : msim R (afterNSDecl E _) (afterNSDecl E _).
Proof. intros; unfold afterNSDecl. simauto. Qed.
Hint Resolve sim_attribute sim_afterNS : sim.
Lemma sim_attrLoop : forall n l attrs k, msim R (attrLoop E _ H1 n l attrs k) (attrLoop E _ H2 n l attrs k).
Proof. induction n; intros; [simpl; eauto with sim|]. cbn [attrLoop]. simauto. Qed.
Hint Resolve sim_attrLoop : sim.
Lemma sim_startTag : forall n, msim R (parseStartTag E _ H1 n) (parseStartTag E _ H2 n).
Proof. intros; unfold parseStartTag. simauto. Qed.
Lemma sim_endTag : msim R (parseEndTag E _ H1) (parseEndTag E _ H2).
Proof. intros; unfold parseEndTag. simauto. Qed.
Hint Resolve sim_startTag sim_endTag : sim.
Lemma sim_element : forall n c1 c2, msim R c1 c2 -> msim R (parseElement E _ H1 n c1) (parseElement E _ H2 n c2).
Proof. intros; unfold parseElement. simauto. Qed.
Lemma sim_chunk : forall t c1 c2, msim R c1 c2 -> msim R (parseBalancedChunk _ H1 c1 t) (parseBalancedChunk _ H2 c2 t).
Proof.
  intros t c1 c2 Hc a b Hs. unfold parseBalancedChunk. cbv zeta. rewrite (ss_depth _ _ _ _ _ Hs).
  destruct (40 <? depth b + 1); [auto|].
  match goal with |- context [c1 ?x] => set (a0 := x) end.
  match goal with |- context [c2 ?x] => set (b0 := x) end.
  assert (Hs0 : ssim R a0 b0). { destruct Hs; constructor; simpl; auto. apply (hs_enter _ _ _ HS); auto. }
  destruct (Hc _ _ Hs0) as [E1 E2]. destruct (c1 a0) as [o1 a1], (c2 b0) as [o2 b1]. simpl in *. split; auto.
  destruct Hs, E2; constructor; simpl; auto. apply (hs_leave _ _ _ HS); auto.
Qed.
Hint Resolve sim_element sim_chunk : sim.
Lemma sim_reference : forall c1 c2, msim R c1 c2 -> msim R (parseReference E _ H1 c1) (parseReference E _ H2 c2).
Proof. intros; unfold parseReference. simauto. Qed.
Hint Resolve sim_reference : sim.
Lemma sim_content : forall n, msim R (parseContent E _ H1 n) (parseContent E _ H2 n).
Proof.
  induction n; [simpl; eauto with sim|]. cbn [parseContent]. simauto.
  intros a b Hs. cbv beta zeta. rewrite (ss_inp _ _ _ _ _ Hs).
  repeat match goal with |- context [has_prefix ?a ?l] => generalize (has_prefix a l); intro end.
  match goal with |- fst (?m1 a) = fst (?m2 b) /\ _ => revert a b Hs; change (msim R m1 m2) end.
  simauto.
Qed.
Lemma sim_misc : forall n, msim R (parseMisc E _ H1 n) (parseMisc E _ H2 n).
Proof.
  induction n; [simpl; eauto with sim|]. cbn [parseMisc]. simauto.
  intros a b Hs. cbv beta zeta. rewrite (ss_inp _ _ _ _ _ Hs).
  repeat match goal with |- context [has_prefix ?a ?l] => generalize (has_prefix a l); intro end.
  generalize (isBlankCh (peek E (inp b))); intro.
  match goal with |- fst (?m1 a) = fst (?m2 b) /\ _ => revert a b Hs; change (msim R m1 m2) end.
  simauto.
Qed.
Hint Resolve sim_content sim_misc : sim.
Lemma sim_docTypeDecl : msim R (parseDocTypeDecl E _ H1) (parseDocTypeDecl E _ H2). Proof. unfold parseDocTypeDecl. simauto. Qed.
Lemma sim_PERef : msim R (parsePEReference E _ H1) (parsePEReference E _ H2). Proof. unfold parsePEReference. simauto. Qed.
Lemma sim_elementDecl : forall n, msim R (parseElementDecl E _ H1 n) (parseElementDecl E _ H2 n). Proof. intros; unfold parseElementDecl. simauto. Qed.
Lemma sim_unquoted : forall n, msim R (unquotedEntity E _ H1 n) (unquotedEntity E _ H2 n). Proof. intros; unfold unquotedEntity. simauto. Qed.
Hint Resolve sim_docTypeDecl sim_PERef sim_elementDecl sim_unquoted : sim.
Lemma sim_setOrig : forall e l, msim R (modify _ (fun s => set_hs _ (h_setOrig H1 (hs s) e l) s)) (modify _ (fun s => set_hs _ (h_setOrig H2 (hs s) e l) s)).
Proof. intros; apply msim_modify. intros a b Hs. apply ssim_hs; auto. apply (hs_orig _ _ _ HS), (ss_hs _ _ _ _ _ Hs). Qed.
Hint Resolve sim_setOrig : sim.
Lemma sim_entityDecl : msim R (parseEntityDecl E _ H1) (parseEntityDecl E _ H2). Proof. unfold parseEntityDecl. simauto. Qed.
Lemma sim_defaultDecl : forall n, msim R (parseDefaultDecl E _ H1 n) (parseDefaultDecl E _ H2 n).
Proof. intros; unfold parseDefaultDecl, parseAttributeValueInternal. simauto. Qed.
Lemma sim_addDefault : forall x y z, msim R (addAttributeDefault _ H1 x y z) (addAttributeDefault _ H2 x y z).
Proof.
  intros; unfold addAttributeDefault. simauto.
  intros a' b' Hs. destruct (hs_attr _ _ _ HS _ _ s0 s z (ss_hs _ _ _ _ _ Hs)) as [Hr Hq].
  destruct (h_createAttr H1 _ _ _ _) as [h1 o1], (h_createAttr H2 _ _ _ _) as [h2 o2]. simpl in *. subst o2.
  destruct o1; simpl; split; auto using ssim_hs. destruct Hs; constructor; simpl; auto. congruence.
Qed.
Hint Resolve sim_entityDecl sim_defaultDecl sim_addDefault : sim.
Lemma sim_attlistLoop : forall n e, msim R (attlistLoop E _ H1 n e) (attlistLoop E _ H2 n e).
Proof. induction n; intros; [simpl; eauto with sim|]. cbn [attlistLoop]. simauto. Qed.
Hint Resolve sim_attlistLoop : sim.
Lemma sim_attlist : forall n, msim R (parseAttributeListDecl E _ H1 n) (parseAttributeListDecl E _ H2 n).
Proof. intros; unfold parseAttributeListDecl. simauto. Qed.
Hint Resolve sim_attlist : sim.
Lemma sim_markup : forall n, msim R (parseMarkupDecl E _ H1 n) (parseMarkupDecl E _ H2 n).
Proof.
  intros n a b Hs. unfold parseMarkupDecl. cbv zeta. rewrite (ss_inp _ _ _ _ _ Hs).
  repeat match goal with |- context [peek E ?l =? ?c] => generalize (peek E l =? c); intro end.
  repeat match goal with |- context [peekn E ?k ?l =? ?c] => generalize (peekn E k l =? c); intro end.
  match goal with |- fst (?m1 a) = fst (?m2 b) /\ _ => revert a b Hs; change (msim R m1 m2) end.
  simauto.
Qed.
Hint Resolve sim_markup : sim.
Lemma sim_subsetLoop : forall n, msim R (subsetLoop E _ H1 n) (subsetLoop E _ H2 n).
Proof. induction n; intros; [simpl; eauto with sim|]. cbn [subsetLoop]. simauto. Qed.
Hint Resolve sim_subsetLoop : sim.
Lemma sim_internalSubset : forall n, msim R (parseInternalSubset E _ H1 n) (parseInternalSubset E _ H2 n).
Proof. intros; unfold parseInternalSubset. simauto. Qed.
Hint Resolve sim_internalSubset : sim.
Lemma sim_DTD : forall n, msim R (parseDTD E _ H1 n) (parseDTD E _ H2 n).
Proof. intros; unfold parseDTD. simauto. Qed.
Hint Resolve sim_DTD : sim.
Lemma sim_switch : forall d, msim R (switchEncoding E _ d) (switchEncoding E _ d).
Proof.
  intros d a b Hs. unfold switchEncoding. rewrite (ss_encoding _ _ _ _ _ Hs), (ss_inp _ _ _ _ _ Hs).
  destruct (Load _ _); simpl; auto using ssim_inp.
Qed.
Hint Resolve sim_switch : sim.
Lemma sim_document : forall n, msim R (parseDocument E _ H1 n) (parseDocument E _ H2 n).
Proof.
  intros; unfold parseDocument. simauto.
  intros a b Hs. rewrite (ss_inp _ _ _ _ _ Hs). destruct (detectEncoding _) as [[? ?]|]; simpl; auto using ssim_inp.
Qed.

(* the same outcome and the same events *)
Lemma sim_Parse : forall n a b bytes, R a b ->
  fst (Parse E S1 H1 n a bytes) = fst (Parse E S2 H2 n b bytes) /\
  map fst (tr (snd (Parse E S1 H1 n a bytes))) = map fst (tr (snd (Parse E S2 H2 n b bytes))) /\
  R (hs (snd (Parse E S1 H1 n a bytes))) (hs (snd (Parse E S2 H2 n b bytes))).
Proof.
  intros n a b bytes Hr. unfold Parse.
  assert (Hs : ssim R (init S1 a bytes) (init S2 b bytes)) by (constructor; simpl; auto).
  destruct (sim_document n _ _ Hs) as [A B]. split; auto. split; [|apply (ss_hs _ _ _ _ _ B)].
  pose proof (ss_tr _ _ _ _ _ B) as C. induction C as [|x y l l' [Hx _] Hl IH]; simpl; congruence.
Qed.
End Funs.

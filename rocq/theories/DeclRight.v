(* What the parser reports of declarations has one of the forms there are: the
   kinds of content models, the types of attributes, of their defaults and of
   entities are those of the interface.  For every handler and every input,
   accepted or not. *)
From Verif Require Import Base Utf8 Encoding Scan Parser.
From Coq Require Import ZifyBool.
Local Open Scope Z_scope.

(* ---- the specification ---- *)
(* every part of a content model is of one of the four kinds *)
Fixpoint known (e : econt) : Prop :=
  match e with
  | EC ct _ _ _ c1 c2 =>
      In ct [ctPCDATA; ctElement; ctSeq; ctOr] /\
      match c1 with Some a => known a | None => True end /\ match c2 with Some b => known b | None => True end
  end.
Definition right_event (e : event) : Prop :=
  match e with
  | EElementDecl _ typ content => In typ [UndefinedElementType; EmptyElementType; AnyElementType; MixedElementType; ElementElementType] /\
      (content <> None -> In typ [MixedElementType; ElementElementType]) /\ match content with Some m => known m | None => True end
  | EAttributeDecl _ _ typ def _ _ =>
      In typ [AttrCDATA; AttrID; AttrIDRef; AttrIDRefs; AttrEntity; AttrEntities; AttrNmtoken; AttrNmtokens; AttrEnumeration; AttrNotation] /\
      In def [DefNone; DefRequired; DefImplied; DefFixed]
  | EEntityDecl _ typ _ _ _ => In typ [InternalGeneralEntity; InternalParameterEntity; ExternalParameterEntity]
  | _ => True
  end.

(* ---- scanners ---- *)
Definition oknown (o : option econt) : Prop := match o with Some e => known e | None => True end.
Definition gives {A} (p : P A) (Q : A -> Prop) : Prop := forall l a, fst (p l) = Ret a -> Q a.
Lemma gives_bind A B (p : P A) (f : A -> P B) (Q : A -> Prop) R : gives p Q -> (forall a, Q a -> gives (f a) R) -> gives (pbind p f) R.
Proof.
  intros Hp Hf l b Hb. unfold pbind in Hb. specialize (Hp l). destruct (p l) as [[a|e| |] l1]; cbn [fst] in *; try discriminate.
  exact (Hf a (Hp a eq_refl) l1 b Hb).
Qed.
Lemma gives_wrap A (p : P A) Q : gives p Q -> gives (pwrap p) Q.
Proof. intros Hp l a Ha. specialize (Hp l). unfold pwrap in Ha. destruct (p l) as [[x|e| |] l1]; cbn [fst] in *; try discriminate. exact (Hp a Ha). Qed.
Lemma gives_any A (p : P A) : gives p (fun _ => True). Proof. intros l a _. exact I. Qed.
Lemma gives_ret A (a : A) (Q : A -> Prop) : Q a -> gives (pret a) Q.
Proof. intros HQ l b Hb. injection Hb as <-. exact HQ. Qed.
Lemma gives_fail A e (Q : A -> Prop) : gives (pfail e) Q. Proof. intros l a Ha. discriminate. Qed.
Lemma gives_failw A e (Q : A -> Prop) : gives (@pfailw A e) Q. Proof. intros l a Ha. discriminate. Qed.
Lemma gives_oof A (Q : A -> Prop) : gives poof Q. Proof. intros l a Ha. discriminate. Qed.
Lemma gives_pan A (Q : A -> Prop) : gives ppan Q. Proof. intros l a Ha. discriminate. Qed.
Ltac gv := repeat first [ apply gives_fail | apply gives_failw | apply gives_oof | apply gives_pan | match goal with
  | |- forall _, _ => intro
  | |- gives (pbind _ _) _ => eapply gives_bind; [first [assumption | apply gives_any]|]
  | |- gives (if ?b then _ else _) _ => destruct b
  | |- gives (let '(_, _) := ?x in _) _ => destruct x
  | |- gives (let _ := _ in _) _ => cbv zeta
  end ].

Ltac g1 := eapply gives_bind; [apply gives_any|intros ? _].
Ltac gif := match goal with |- gives (if ?b then _ else _) _ => destruct b end.

Section Scanners.
Variable E : env.
Lemma known_occur o e : known e -> known (set_occur o e). Proof. destruct e. cbn. auto. Qed.
Lemma gives_new n ct : gives (pwrap (plift (newElementContent n ct))) known.
Proof.
  apply gives_wrap. intros l a Ha. unfold plift in Ha. cbn [fst] in Ha. unfold newElementContent in Ha. destruct (Z.eqb_spec ct ctElement) as [->|N1].
  - destruct n; [discriminate|]. destruct (prefix_local _). injection Ha as <-. cbn. auto.
  - destruct ((ct =? ctPCDATA) || (ct =? ctSeq) || (ct =? ctOr)) eqn:K; [|discriminate]. destruct n; [|discriminate]. injection Ha as <-. cbn.
    unfold ctPCDATA, ctSeq, ctOr, ctElement in *. split; [lia|auto].
Qed.
Lemma gives_occurrence e : known e -> gives (occurrence E e) known.
Proof. intros K. unfold occurrence. gv; apply gives_ret; auto using known_occur. Qed.
Lemma gives_leaf : gives (nameLeaf E) known.
Proof. unfold nameLeaf. eapply gives_bind; [apply gives_any|]. intros s _. eapply gives_bind; [apply gives_new|]. intros e K. apply gives_occurrence, K. Qed.
Definition chain_known (c : chain) : Prop := match c with Leaf r => oknown r | Chain ct sp => In ct [ctSeq; ctOr] /\ Forall oknown sp end.
Lemma build_known c last : chain_known c -> oknown last -> oknown (build c last).
Proof.
  intros K L. destruct c as [r|ct sp]; cbn [build chain_known] in *; [exact K|]. destruct K as [C F]. induction F as [|c1 t F1 _ IH]; cbn [build_spine oknown known]; [exact L|].
  split; [cbn in C |- *; tauto|]. split; [destruct c1; exact F1|exact IH].
Qed.
Lemma addOp_known ct c last : In ct [ctSeq; ctOr] -> chain_known c -> oknown last -> chain_known (addOp ct c last).
Proof.
  intros C K L. unfold addOp. destruct last as [x|].
  - destruct c as [r|ct' sp]; cbn [chain_known] in *; [split; [exact C|constructor; [exact L|constructor]]|]. destruct K as [K1 K2]. split; [exact K1|].
    apply Forall_app. split; [exact K2|constructor; [exact L|constructor]].
  - split; [exact C|]. constructor; [apply build_known; [exact K|exact I]|constructor].
Qed.
Lemma gives_close r : oknown r -> gives (closeGroup E r) oknown.
Proof. intros K. unfold closeGroup. gv; try (destruct r); gv; apply gives_ret; cbn; auto using known_occur. Qed.
Lemma gives_children n : (forall d, gives (childrenDecl E n d) oknown) /\
  (forall d sep c last, chain_known c -> oknown last -> gives (childrenLoop E n d sep c last) oknown).
Proof.
  induction n as [|n [I1 I2]]; (split; intros; [cbn [childrenDecl]|cbn [childrenLoop]]); try apply gives_oof.
  - destruct (128 <? d); [apply gives_fail|]. do 2 g1. eapply gives_bind with (Q := chain_known).
    + gif; [gv; apply gives_ret; exact I|]. eapply gives_bind; [apply gives_leaf|]. intros e K. apply gives_ret. exact K.
    + intros c K. g1. apply I2; [exact K|exact I].
  - eapply gives_bind; [apply gives_any|]. intros dn _. destruct dn; [apply gives_close, build_known; assumption|]. eapply gives_bind; [apply gives_any|]. intros x _.
    destruct (x =? 41); [apply gives_close, build_known; assumption|]. destruct (negb _); [apply gives_failw|]. destruct (negb _ && _); [apply gives_failw|]. g1. cbv zeta. do 2 g1.
    eapply gives_bind with (Q := oknown).
    + destruct (_ =? 40).
      * do 2 g1. eapply gives_bind; [apply gives_wrap, I1|]. intros r K. g1. apply gives_ret, K.
      * eapply gives_bind; [apply gives_leaf|]. intros e K. apply gives_ret. exact K.
    + intros r K. g1. apply I2; [|exact K]. apply addOp_known; [destruct (x =? 44); cbn; auto|assumption..].
Qed.
Lemma gives_mixedLoop n : forall r s, oknown r -> gives (mixedLoop E n r s) (fun x => oknown (fst x)).
Proof.
  induction n as [|n IH]; intros r s K; cbn [mixedLoop]; [apply gives_oof|]. eapply gives_bind; [apply gives_any|]. intros c _.
  destruct (negb _); [apply gives_ret, K|]. g1. destruct s; [do 3 g1|gv]. apply IH. cbn. split; [auto|]. split; [destruct r; exact K|exact I].
Qed.
Lemma gives_mixed n : gives (mixedDecl E n) oknown.
Proof.
  unfold mixedDecl. eapply gives_bind; [apply gives_any|]. intros ok _. destruct (negb ok); [apply gives_failw|]. cbv zeta. eapply gives_bind; [apply gives_any|]. intros c _.
  destruct (c =? 41); [gv; apply gives_ret; cbn; auto|]. eapply gives_bind; [apply gives_mixedLoop; destruct (_ || _); cbn; auto|].
  intros [r el] K. cbn [fst] in K. g1. gif; [|apply gives_ret, K]. g1. destruct el.
  - apply gives_ret. destruct r; [apply known_occur, K|exact I].
  - eapply gives_bind; [apply gives_new|]. intros c2 K2. apply gives_ret. destruct r as [[ct oc nm pf c1 c3]|]; [|exact I]. cbn in *. tauto.
Qed.
Lemma gives_element n : gives (scanElementDecl E n) (fun r => forall w, right_event (EElementDecl w (snd (fst r)) (snd r))).
Proof.
  unfold scanElementDecl. eapply gives_bind; [apply gives_any|]. intros ok _. destruct (negb ok); [apply gives_failw|]. eapply gives_bind; [apply gives_any|]. intros c _.
  destruct (negb _); [apply gives_failw|]. eapply gives_bind; [apply gives_any|]. intros _ _. eapply gives_bind; [apply gives_any|]. intros name _.
  eapply gives_bind; [apply gives_any|]. intros c2 _. destruct (negb _); [apply gives_failw|]. eapply gives_bind; [apply gives_any|]. intros _ _.
  eapply gives_bind with (Q := fun r => oknown (fst r) /\ (fst r <> None -> In (snd r) [MixedElementType; ElementElementType]) /\ In (snd r) [UndefinedElementType; EmptyElementType; AnyElementType; MixedElementType; ElementElementType]).
  - g1. gif; [apply gives_ret; cbn; repeat split; auto; congruence|]. g1. gif; [apply gives_ret; cbn; repeat split; auto; congruence|]. g1. gif; [|apply gives_ret; cbn; repeat split; auto; congruence].
    apply gives_wrap. unfold elementContentDecl. g1. destruct (negb _); [apply gives_failw|]. do 3 g1. gif.
    + eapply gives_bind; [apply gives_wrap, gives_mixed|]. intros r K. g1. apply gives_ret. cbn; auto 12.
    + eapply gives_bind; [apply gives_wrap, gives_children|]. intros r K. g1. apply gives_ret. cbn; auto 12.
  - intros [r t] (K1 & K3 & K2). gv. apply gives_ret. intros w. cbn [right_event fst snd] in *. repeat split; assumption.
Qed.
Lemma gives_type n : gives (parseAttributeType E n)
  (fun r => In (fst r) [AttrCDATA; AttrID; AttrIDRef; AttrIDRefs; AttrEntity; AttrEntities; AttrNmtoken; AttrNmtokens; AttrEnumeration; AttrNotation]).
Proof.
  unfold parseAttributeType, attrKeywords. cbn [tryKeywords]. gv; try (apply gives_ret; cbn; auto 12; fail). unfold parseEnumeratedType. gv; apply gives_ret; cbn; auto 12.
Qed.
End Scanners.

(* ---- the parser ---- *)
Section Kept.
Variable E : env.
Variable S : Type.
Variable H : handler S.
Variable J : S -> Prop.
Hypothesis HEv : forall h v e, right_event e -> J h -> snd (h_event H h v e) <> HPanic -> J (fst (h_event H h v e)).
Hypothesis HGe : forall h v n, J h -> J (fst (h_getEntity H h v n)).
Hypothesis HPe : forall h v n, J h -> J (fst (h_getPEntity H h v n)).
Hypothesis HSo : forall h e s, J h -> J (h_setOrig H h e s).
Hypothesis HCa : forall h l p v, J h -> J (fst (h_createAttr H h l p v)).
Hypothesis HEn : forall h, J h -> J (h_chunkEnter H h).
Hypothesis HLe : forall h h', J h -> J h' -> J (h_chunkLeave H h h').
Notation M := (M S).
Notation pst := (pst S).
Definition fine_state (s : pst) : Prop := J (hs s) /\ Forall (fun p => right_event (fst p)) (tr s).
Definition any {A} (a : A) : Prop := True.
Definition kept {A} (Q : A -> Prop) (m : M A) : Prop := forall s, fine_state s ->
  match m s with
  | (Ret a, s') => fine_state s' /\ Q a
  | (Fail _, s') => fine_state s'
  | (_, s') => Forall (fun p => right_event (fst p)) (tr s')
  end.
Lemma kept_bind A B (Q : A -> Prop) (R : B -> Prop) (m : M A) (f : A -> M B) : kept Q m -> (forall a, Q a -> kept R (f a)) -> kept R (bind S m f).
Proof. intros Hm Hf s Hs. specialize (Hm s Hs). unfold bind. destruct (m s) as [[a|e| |] s1]; auto. destruct Hm as [H1 H2]. exact (Hf a H2 s1 H1). Qed.
Lemma kept_wrap A (Q : A -> Prop) m : kept Q m -> kept Q (wrap S m).
Proof. intros Hm s Hs. specialize (Hm s Hs). unfold wrap. destruct (m s) as [[a|e| |] s1]; auto. Qed.
Lemma kept_any A (Q : A -> Prop) m : kept Q m -> kept any m.
Proof. intros Hm s Hs. specialize (Hm s Hs). destruct (m s) as [[a|e| |] s1]; auto. split; [apply Hm|exact I]. Qed.
Lemma kept_same A (m : M A) : (forall s, hs (snd (m s)) = hs s /\ tr (snd (m s)) = tr s) -> kept any m.
Proof.
  intros Hm s Hs. specialize (Hm s). destruct (m s) as [o s1]. cbn [snd] in Hm. destruct Hm as [E1 E2].
  assert (fine_state s1) by (unfold fine_state; rewrite E1, E2; exact Hs). destruct o; auto; [split; [assumption|exact I]|apply H0..].
Qed.
Lemma kept_ret A (Q : A -> Prop) a : Q a -> kept Q (ret S a). Proof. intros HQ s Hs. split; assumption. Qed.
Lemma kept_fail A (Q : A -> Prop) e : kept Q (@fail S A e). Proof. intros s Hs. exact Hs. Qed.
Lemma kept_failw A (Q : A -> Prop) e : kept Q (@failw S A e). Proof. intros s Hs. exact Hs. Qed.
Lemma kept_pan A (Q : A -> Prop) : kept Q (@pan S A). Proof. intros s Hs. apply Hs. Qed.
Lemma kept_oof A (Q : A -> Prop) : kept Q (@oof S A). Proof. intros s Hs. apply Hs. Qed.
Lemma kept_lift A (p : P A) Q : gives p Q -> kept Q (lift S p).
Proof. intros Hp s Hs. unfold lift. specialize (Hp (inp s)). destruct (p (inp s)) as [[a|e| |] l]; cbn [fst] in Hp; [split; [exact Hs|apply Hp; reflexivity]|exact Hs|apply Hs..]. Qed.
Lemma kept_lift_any A (p : P A) : kept any (lift S p). Proof. apply kept_lift. intros l a _. exact I. Qed.
Lemma kept_mlift A (o : outcome gerr A) : kept any (mlift S o). Proof. apply kept_same. intros s. split; reflexivity. Qed.
Lemma kept_get A (f : pst -> A) : kept any (get S f). Proof. apply kept_same. intros s. split; reflexivity. Qed.
Lemma kept_modify f : (forall s, hs (f s) = hs s /\ tr (f s) = tr s) -> kept any (modify S f). Proof. intros Hf. apply kept_same. exact Hf. Qed.
Lemma kept_emit_raw e : right_event e -> kept any (emit_raw S H e).
Proof.
  intros He s [H1 H2]. unfold emit_raw. pose proof (HEv (hs s) (the_view S s) e He H1) as K. destruct (h_event _ _ _ _) as [h' r]. cbn [fst snd] in K.
  assert (T : Forall (fun p => right_event (fst p)) ((e, r) :: tr s)) by (constructor; assumption).
  destruct r; unfold fine_state, any; cbn; auto; try (split; [split; [apply K; discriminate|exact T]|exact I]); split; [apply K; discriminate|exact T].
Qed.
Lemma kept_emit e : right_event e -> kept any (emit S H e). Proof. intros He. apply kept_wrap, kept_emit_raw, He. Qed.
Lemma kept_always A (Q : A -> Prop) (m : M A) c : kept Q m -> kept Q (always S m c).
Proof. intros Hm s Hs. specialize (Hm s Hs). unfold always. destruct (m s) as [[a|e| |] s1]; auto. Qed.
Lemma kept_query n : kept any (queryEntity S H n).
Proof. intros s [H1 H2]. unfold queryEntity. pose proof (HGe (hs s) (the_view S s) n H1). destruct (h_getEntity _ _ _ _) as [h' [e b|]]; cbn in *; unfold fine_state, any in *; cbn in *; auto. Qed.
Lemma kept_queryP n : kept any (queryPEntity S H n).
Proof. intros s [H1 H2]. unfold queryPEntity. pose proof (HPe (hs s) (the_view S s) n H1). destruct (h_getPEntity _ _ _ _) as [h' [e b|]]; cbn in *; unfold fine_state, any in *; cbn in *; auto. Qed.
Lemma kept_getEntity n : kept any (getEntity S H n).
Proof. apply kept_same. intros s. unfold getEntity. destruct (inSubset s =? 0); [split; reflexivity|]. destruct (h_docEntity _ _ _); split; reflexivity. Qed.
Lemma kept_blanks t : kept any (areBlanks E S H t). Proof. apply kept_same. intros s. split; reflexivity. Qed.
Lemma kept_orig e o : kept any (modify S (fun s => set_hs S (h_setOrig H (hs s) e o) s)).
Proof. intros s [H1 H2]. split; [split; [apply HSo, H1|exact H2]|exact I]. Qed.
Ltac ksolve := first [ assumption | apply kept_failw | apply kept_fail | apply kept_oof | apply kept_pan | apply kept_get | apply kept_lift_any | apply kept_orig
  | apply kept_mlift | apply kept_blanks | apply kept_query | apply kept_queryP | apply kept_getEntity | apply kept_ret; exact I
  | apply kept_emit; exact I | apply kept_emit_raw; exact I | apply kept_modify; intros; split; reflexivity ].
Ltac unf := unfold mpeek, mpeekn, madvance, mhas, mconsume, mdone, mskip.
Ltac kstep := first [ ksolve | match goal with
  | |- forall _, _ => intro
  | |- kept _ (bind _ _ _) => eapply kept_bind with (Q := any)
  | |- kept _ (wrap _ _) => apply kept_wrap
  | |- kept _ (always _ _ _) => apply kept_always
  | |- kept _ (if ?b then _ else _) => destruct b
  | |- kept _ (let '(_, _) := ?x in _) => destruct x
  | |- kept _ (match ?x with _ => _ end) => destruct x
  | |- kept _ (let _ := _ in _) => cbv zeta
  end ].
Ltac kall := unf; repeat kstep.
Lemma kept_PI : kept any (parsePI E S H). Proof. unfold parsePI. kall. Qed.
Lemma kept_comment : kept any (parseComment E S H). Proof. unfold parseComment. kall. Qed.
Lemma kept_charData b : kept any (parseCharData E S H b). Proof. unfold parseCharData. kall. Qed.
Lemma kept_CDSect : kept any (parseCDSect E S H). Proof. unfold parseCDSect. unf. repeat first [apply kept_charData | kstep]. Qed.
Lemma kept_entityRef : kept any (parseEntityRef E S H). Proof. unfold parseEntityRef. kall. Qed.
Lemma kept_valueLoop n : forall q nm b sp en, kept any (attrValueLoop E S H n q nm b sp en).
Proof. induction n as [|n IH]; intros; cbn [attrValueLoop]; [ksolve|]. unf. repeat first [apply IH | apply kept_entityRef | kstep]. Qed.
Lemma kept_value n nm : kept any (parseAttributeValue E S H n nm).
Proof. unfold parseAttributeValue, parseAttributeValueInternal. unf. repeat first [apply kept_valueLoop | kstep]. Qed.
Lemma kept_attribute n nm : kept any (parseAttribute E S H n nm).
Proof. unfold parseAttribute. unf. repeat first [apply kept_value | kstep]. Qed.
Lemma kept_attrLoop n : forall l a k, kept any (attrLoop E S H n l a k).
Proof. induction n as [|n IH]; intros; cbn [attrLoop]; [ksolve|]. unfold afterNSDecl. unf. repeat first [apply IH | apply kept_attribute | kstep]. Qed.
Lemma kept_startTag n : kept any (parseStartTag E S H n).
Proof. unfold parseStartTag. unf. repeat first [apply kept_attrLoop | kstep]. Qed.
Lemma kept_endTag : kept any (parseEndTag E S H). Proof. unfold parseEndTag. kall. Qed.
Lemma kept_element n content : kept any content -> kept any (parseElement E S H n content).
Proof. intros Hc. unfold parseElement. unf. repeat first [apply kept_startTag | apply kept_endTag | kstep]. Qed.
Lemma kept_chunk content c : kept any content -> kept any (parseBalancedChunk S H content c).
Proof.
  intros Hc s Hs. unfold parseBalancedChunk. cbv zeta. destruct (40 <? depth s + 1); [exact Hs|].
  match goal with |- context [content ?x] => assert (F : fine_state x) by (split; [apply HEn, Hs|apply Hs]); specialize (Hc x F); destruct (content x) as [[a|e| |] s1] end.
  - destruct Hc as [[C1 C2] _]. split; [|exact I]. split; [apply HLe; [apply Hs|exact C1]|exact C2].
  - destruct Hc as [C1 C2]. split; [apply HLe; [apply Hs|exact C1]|exact C2].
  - exact Hc.
  - exact Hc.
Qed.
Lemma kept_reference content : kept any content -> kept any (parseReference E S H content).
Proof. intros Hc. unfold parseReference. unf. repeat first [apply kept_chunk | apply kept_entityRef | kstep]. Qed.
Lemma kept_content n : kept any (parseContent E S H n).
Proof.
  induction n as [|n IH]; cbn [parseContent]; [ksolve|]. unf. eapply kept_bind with (Q := any); [ksolve|]. intros d _. destruct d; [ksolve|].
  assert (X : forall m : M unit, kept any m -> kept any (bind S m (fun _ => parseContent E S H n))) by (intros m Hm; eapply kept_bind; [exact Hm|]; intros _ _; exact IH).
  intros s Hs. cbv zeta. repeat match goal with |- context [if ?b then _ else _] => destruct b end.
  - apply (kept_ret unit any); [exact I|auto].
  - apply X; auto. apply kept_wrap, kept_PI.
  - apply X; auto. apply kept_wrap, kept_CDSect.
  - apply X; auto. apply kept_wrap, kept_comment.
  - apply X; auto. apply kept_wrap, kept_element; auto.
  - apply X; auto. apply kept_wrap, kept_reference; auto.
  - apply X; auto. apply kept_charData.
Qed.
Lemma kept_misc n : kept any (parseMisc E S H n).
Proof.
  induction n as [|n IH]; cbn [parseMisc]; [ksolve|]. unf. eapply kept_bind with (Q := any); [ksolve|]. intros d _. destruct d; [ksolve|].
  assert (X : forall A (m : M A), kept any m -> kept any (bind S m (fun _ => parseMisc E S H n))) by (intros A m Hm; eapply kept_bind; [exact Hm|]; intros _ _; exact IH).
  intros s Hs. cbv zeta. repeat match goal with |- context [if ?b then _ else _] => destruct b end.
  - apply X; auto. apply kept_wrap, kept_PI.
  - apply X; auto. apply kept_wrap, kept_comment.
  - apply X; auto. ksolve.
  - apply (kept_ret unit any); [exact I|auto].
Qed.
Lemma kept_PEReference : kept any (parsePEReference E S H). Proof. unfold parsePEReference. kall. Qed.
Lemma kept_elementDecl n : kept any (parseElementDecl E S H n).
Proof. unfold parseElementDecl. eapply kept_bind; [apply kept_lift, gives_element|]. intros [[nm t] c] K. apply kept_emit. exact (K nm). Qed.
Lemma kept_entityDecl : kept any (parseEntityDecl E S H).
Proof.
  unfold parseEntityDecl, unquotedEntity. unf. repeat first [ksolve | solve [apply kept_emit; cbn; try match goal with |- context [if ?b then _ else _] => destruct b end; auto] | kstep].
Qed.
Lemma kept_defaultDecl n : kept (fun r => In (fst r) [DefNone; DefRequired; DefImplied; DefFixed]) (parseDefaultDecl E S H n).
Proof.
  unfold parseDefaultDecl, parseAttributeValueInternal. unf. eapply kept_bind with (Q := any); [ksolve|]. intros rq _. destruct rq; [apply kept_ret; cbn; auto|].
  eapply kept_bind with (Q := any); [ksolve|]. intros im _. destruct im; [apply kept_ret; cbn; auto|]. eapply kept_bind with (Q := any); [ksolve|]. intros fx _.
  eapply kept_bind with (Q := fun d => In d [DefNone; DefFixed]).
  - destruct fx; [|apply kept_ret; cbn; auto]. eapply kept_bind with (Q := any); [ksolve|]. intros c _. destruct (negb _); [ksolve|].
    eapply kept_bind with (Q := any); [ksolve|]. intros _ _. apply kept_ret; cbn; auto.
  - intros d K. repeat first [apply kept_valueLoop | apply kept_ret; cbn in *; tauto | kstep].
Qed.
Lemma kept_addDefault a b c : kept any (addAttributeDefault S H a b c).
Proof.
  unfold addAttributeDefault. kall. intros st [H1 H2].
  match goal with |- context [h_createAttr H (hs st) ?l ?p ?v] => pose proof (HCa (hs st) l p v H1) as K; destruct (h_createAttr H (hs st) l p v) as [h' [u|u| |]] end;
    cbn in *; unfold fine_state, any in *; cbn in *; auto.
Qed.
Lemma kept_attlistLoop n : forall e, kept any (attlistLoop E S H n e).
Proof.
  induction n as [|n IH]; intros e; cbn [attlistLoop]; [ksolve|]. unf.
  do 2 (eapply kept_bind with (Q := any); [ksolve|intros ? _]; try (destruct (_ =? 62); [ksolve|])).
  do 1 (eapply kept_bind with (Q := any); [ksolve|intros ? _]). destruct (negb _); [ksolve|]. eapply kept_bind with (Q := any); [ksolve|intros ? _].
  eapply kept_bind; [apply kept_lift, gives_wrap, gives_type|]. intros [typ enum] T. cbn [fst] in T. eapply kept_bind with (Q := any); [ksolve|intros ? _]. destruct (negb _); [ksolve|].
  eapply kept_bind with (Q := any); [ksolve|intros ? _]. eapply kept_bind; [apply kept_wrap, kept_defaultDecl|]. intros [def dv] D. cbn [fst] in D.
  repeat first [apply IH | apply kept_addDefault | apply kept_emit; exact (conj T D) | kstep].
Qed.
Lemma kept_attlist n : kept any (parseAttributeListDecl E S H n).
Proof. unfold parseAttributeListDecl. unf. repeat first [apply kept_attlistLoop | kstep]. Qed.
Lemma kept_markup n : kept any (parseMarkupDecl E S H n).
Proof.
  intros s Hs. unfold parseMarkupDecl. cbv zeta.
  repeat match goal with |- context [peek E ?l =? ?c] => generalize (peek E l =? c); intro end.
  repeat match goal with |- context [peekn E ?k ?l =? ?c] => generalize (peekn E k l =? c); intro end.
  match goal with |- context [?m s] => match type of m with M unit => revert s Hs; change (kept any m) | _ => idtac end end.
  repeat first [apply kept_elementDecl | apply kept_entityDecl | apply kept_attlist | apply kept_PI | apply kept_comment | apply kept_PEReference | kstep].
Qed.
Lemma kept_subsetLoop n : kept any (subsetLoop E S H n).
Proof. induction n as [|n IH]; cbn [subsetLoop]; [ksolve|]. unf. repeat first [apply IH | apply kept_markup | apply kept_PEReference | kstep]. Qed.
Lemma kept_internalSubset n : kept any (parseInternalSubset E S H n).
Proof. unfold parseInternalSubset. unf. repeat first [apply kept_subsetLoop | kstep]. Qed.
Lemma kept_DTD n : kept any (parseDTD E S H n).
Proof. unfold parseDTD, parseDocTypeDecl. unf. repeat first [apply kept_internalSubset | apply kept_misc | kstep]. Qed.
Lemma kept_document n : kept any (parseDocument E S H n).
Proof.
  unfold parseDocument. unf. repeat first [apply kept_DTD | apply kept_misc | apply kept_element; apply kept_content | kstep].
  - apply kept_same. intros s. destruct (detectEncoding (inp s)) as [[enc rest]|]; split; reflexivity.
  - apply kept_same. intros s. unfold switchEncoding. cbv zeta. destruct (Load _ _); split; reflexivity.
Qed.
Lemma kept_parse n h bytes s' : J h -> Parse E S H n h bytes = (Ret tt, s') -> J (hs s').
Proof. intros Hh R. pose proof (kept_document n (init S h bytes) (conj Hh (Forall_nil _))) as K. unfold Parse in R. rewrite R in K. apply K. Qed.
End Kept.

(* every declaration that is reported, whatever becomes of the input *)
Theorem declarations_right E S (H : handler S) n h bytes e r : In (e, r) (tr (snd (Parse E S H n h bytes))) -> right_event e.
Proof.
  intros Hin. pose proof (kept_document E S H (fun _ => True) (fun _ _ _ _ _ _ => I) (fun _ _ _ _ => I) (fun _ _ _ _ => I) (fun _ _ _ _ => I) (fun _ _ _ _ _ => I)
    (fun _ _ => I) (fun _ _ _ _ => I) n (init S h bytes) (conj I (Forall_nil _))) as K.
  unfold Parse in Hin. destruct (parseDocument E S H n (init S h bytes)) as [o s']. cbn [snd] in Hin.
  assert (T : Forall (fun p => right_event (fst p)) (tr s')) by (destruct o; [apply K|apply K|exact K|exact K]).
  rewrite Forall_forall in T. exact (T _ Hin).
Qed.

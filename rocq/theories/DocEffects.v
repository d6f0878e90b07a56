(* The order of the events of a whole document, for every handler. *)
From Verif Require Import Base Utf8 Encoding Scan ScanProofs Parser Effects.

(* ---- specification: the grammar of a document's event sequence ---- *)
Inductive phase :=
| PInit                       (* nothing delivered *)
| PLocated                    (* after SetDocumentLocator *)
| PProlog                     (* after StartDocument *)
| PSubset                     (* in the internal subset *)
| PAfterSubset                (* between the internal subset and the root *)
| PRoot (open : list node)    (* in the root element; open elements, innermost first *)
| PEpilog                     (* after the root element *)
| PEnded                      (* after EndDocument *)
| PStray.                     (* after a Reference outside the root *)

Definition dstep (p : phase) (e : event) : option phase :=
  match p, e with
  | PInit, ESetDocumentLocator => Some PLocated
  | PLocated, EStartDocument => Some PProlog
  | PProlog, EInternalSubset _ _ _ => Some PSubset
  | (PProlog | PAfterSubset), EStartElement l p u _ _ => Some (PRoot [(l, p, u)])
  | (PProlog | PAfterSubset), EReference _ => Some PStray
  | (PProlog | PAfterSubset | PEpilog), (EComment _ | EProcessingInstruction _ _) => Some p
  | PSubset, EExternalSubset _ _ _ => Some PAfterSubset
  | PSubset, e => if isDecl e then Some PSubset else None
  | PRoot open, EStartElement l p u _ _ => Some (PRoot ((l, p, u) :: open))
  | PRoot (top :: rest), EEndElement l p u =>
      if node_eqb top (l, p, u) then Some (match rest with [] => PEpilog | _ => PRoot rest end) else None
  | PRoot open, e => if isContent e then Some (PRoot open) else None
  | PEpilog, EEndDocument => Some PEnded
  | _, _ => None
  end.
Fixpoint drun (p : phase) (evs : list event) : option phase :=
  match evs with
  | [] => Some p
  | e :: t => match dstep p e with Some q => drun q t | None => None end
  end.

Lemma drun_app : forall a b p, drun p (a ++ b) = match drun p a with Some q => drun q b | None => None end.
Proof. induction a; intros; simpl; auto. destruct (dstep p a); auto. Qed.

Lemma nested_drun : forall evs stk stk' base, base <> [] -> nested stk evs = Some stk' ->
  drun (PRoot (stk ++ base)) evs = Some (PRoot (stk' ++ base)).
Proof.
  induction evs as [|e evs IH]; intros stk stk' base Hb Hn.
  - inversion Hn; reflexivity.
  - assert (Hc : isContent e = true -> nested stk evs = Some stk' -> drun (PRoot (stk ++ base)) (e :: evs) = Some (PRoot (stk' ++ base))).
    { intros Hc Hn'. destruct e; try discriminate; cbn [drun dstep isContent]; destruct (stk ++ base) eqn:Hx;
      rewrite <- Hx; apply IH; auto. }
    destruct e; cbn [nested isContent] in Hn; try discriminate; auto.
    + cbn [drun dstep]. destruct (stk ++ base) eqn:Hx; rewrite <- Hx; apply (IH ((local, prefix, uri) :: stk)); auto.
    + destruct stk as [|top rest]; [discriminate|]. destruct (node_eqb top _) eqn:Ht; [|discriminate].
      cbn [drun dstep app]. rewrite Ht. destruct (rest ++ base) eqn:Hx.
      * destruct rest; [|discriminate]. simpl in Hx. congruence.
      * rewrite <- Hx. apply IH; auto.
Qed.
Lemma drun_misc : forall evs p, (p = PProlog \/ p = PAfterSubset \/ p = PEpilog) -> forallb isMisc evs = true -> drun p evs = Some p.
Proof.
  induction evs as [|e evs IH]; intros p Hp He; [reflexivity|]. simpl in He. apply andb_true_iff in He as [H1 H2].
  destruct Hp as [->|[->| ->]]; destruct e; try discriminate; simpl; apply IH; auto.
Qed.
Lemma drun_decl : forall evs, forallb isDecl evs = true -> drun PSubset evs = Some PSubset.
Proof.
  induction evs as [|e evs IH]; intros He; [reflexivity|]. simpl in He. apply andb_true_iff in He as [H1 H2].
  destruct e; try discriminate; simpl; apply IH; auto.
Qed.
Lemma drun_element : forall p i b evs, (p = PProlog \/ p = PAfterSubset) -> TElement i b evs ->
  exists q, drun p (rev evs) = Some q /\ (b = true -> q = PEpilog).
Proof.
  intros p i b evs Hp [(->&[->|(n&->)])|(l&px&u&ns&atts&rest&Hr&Hrest)].
  - exists p; split; [auto|discriminate].
  - exists PStray; split; [|discriminate]. destruct Hp as [->| ->]; reflexivity.
  - rewrite Hr. assert (Hd : drun p (EStartElement l px u ns atts :: rest) = drun (PRoot [(l, px, u)]) rest).
    { destruct Hp as [->| ->]; reflexivity. }
    rewrite Hd. destruct Hrest as [(->&Hn)|(body&->&Hn)].
    + destruct (Hn []) as (stk' & G). exists (PRoot (stk' ++ [(l, px, u)])). split; [|discriminate].
      rewrite app_nil_r in G. apply (nested_drun rest [] stk' [(l,px,u)]) in G; [auto|discriminate].
    + exists PEpilog; split; auto. rewrite drun_app.
      specialize (Hn []). apply (nested_drun body [] [] [(l,px,u)]) in Hn; [|discriminate]. simpl app in Hn. rewrite Hn.
      cbn [drun dstep]. rewrite node_eqb_refl; auto.
Qed.

Section Doc.
Variable E : env.
Variable S : Type.
Variable H : handler S.
Notation M := (M S).

Hint Extern 2 (eff _ (modify _ _)) => apply eff_modify; [auto | reflexivity | intros; repeat split] : eff.
Hint Extern 1 (eff _ (mlift _ (attrNormalizeSpace _))) => apply eff_mlift; [auto|apply lexical_norm] : eff.
Hint Extern 2 (eff (TAll isMisc) (parsePI _ _ _)) => apply eff_PI; [apply closed_all | reflexivity] : eff.
Hint Extern 2 (eff (TAll isMisc) (parseComment _ _ _)) => apply eff_comment; [apply closed_all | reflexivity] : eff.
Hint Extern 2 (eff TDecl (parsePI _ _ _)) => apply eff_PI; [apply closed_decl | intros; intro; reflexivity] : eff.
Hint Extern 2 (eff TDecl (parseComment _ _ _)) => apply eff_comment; [apply closed_decl | intros; intro; reflexivity] : eff.
Hint Extern 2 (eff TDecl (emit _ _ _)) => apply eff_emit; intros; intro; reflexivity : eff.
Hint Extern 2 (eff TDecl (attrValueLoop _ _ _ _ _ _ _ _ _)) =>
  apply eff_weaken with (T := TQuiet); [apply quiet_decl | apply eff_attrValueLoop] : eff.

Lemma eff_misc : forall n, eff (TAll isMisc) (parseMisc E S H n).
Proof.
  pose proof (closed_all isMisc) as TC.
  induction n; [simpl; eauto with eff|]. cbn [parseMisc]. eauto_eff.
  intro s. cbv beta zeta.
  repeat match goal with |- context [has_prefix ?a ?l] => generalize (has_prefix a l); intro end.
  generalize (isBlankCh (peek E (inp s))); intro.
  match goal with |- context [?m s] => match type of m with M unit => revert s; change (eff (TAll isMisc) m) | _ => idtac end end.
  eauto_eff.
Qed.

Lemma eff_PEReference : eff TDecl (parsePEReference E S H).
Proof. pose proof closed_decl as TC. unfold parsePEReference. eauto_eff. Qed.
Hint Resolve eff_PEReference : eff.
Lemma eff_elementDecl : forall n, eff TDecl (parseElementDecl E S H n).
Proof. pose proof closed_decl as TC. intros; unfold parseElementDecl. eauto_eff. Qed.
Lemma eff_unquoted : forall n, eff TDecl (unquotedEntity E S H n).
Proof. pose proof closed_decl as TC. intros; unfold unquotedEntity. eauto_eff. Qed.
Hint Resolve eff_elementDecl eff_unquoted : eff.
Lemma eff_entityDecl : eff TDecl (parseEntityDecl E S H).
Proof. pose proof closed_decl as TC. unfold parseEntityDecl. eauto_eff. Qed.
Lemma eff_defaultDecl : forall n, eff TDecl (parseDefaultDecl E S H n).
Proof. pose proof closed_decl as TC. intros; unfold parseDefaultDecl, parseAttributeValueInternal. eauto_eff. Qed.
Lemma eff_addDefault : forall a b c, eff TDecl (addAttributeDefault S H a b c).
Proof.
  pose proof closed_decl as TC. intros; unfold addAttributeDefault. eauto_eff.
  apply eff_quiet; auto; intros st; destruct (h_createAttr _ _ _ _ _) as [h' [u|u| |]]; simpl; auto; repeat split.
Qed.
Hint Resolve eff_entityDecl eff_defaultDecl eff_addDefault : eff.
Lemma eff_attlistLoop : forall n e, eff TDecl (attlistLoop E S H n e).
Proof. pose proof closed_decl as TC. induction n; intros; [simpl; eauto with eff|]. cbn [attlistLoop]. eauto_eff. Qed.
Hint Resolve eff_attlistLoop : eff.
Lemma eff_attlist : forall n, eff TDecl (parseAttributeListDecl E S H n).
Proof. pose proof closed_decl as TC. intros; unfold parseAttributeListDecl. eauto_eff. Qed.
Hint Resolve eff_attlist : eff.
Lemma eff_markup : forall n, eff TDecl (parseMarkupDecl E S H n).
Proof.
  pose proof closed_decl as TC. intros n s. unfold parseMarkupDecl. cbv zeta.
  repeat match goal with |- context [peek E ?l =? ?c] => generalize (peek E l =? c); intro end.
  repeat match goal with |- context [peekn E ?k ?l =? ?c] => generalize (peekn E k l =? c); intro end.
  match goal with |- context [?m s] => match type of m with M unit => revert s; change (eff TDecl m) | _ => idtac end end.
  eauto_eff.
Qed.
Hint Resolve eff_markup : eff.
Lemma eff_subsetLoop : forall n, eff TDecl (subsetLoop E S H n).
Proof. pose proof closed_decl as TC. induction n; intros; [simpl; eauto with eff|]. cbn [subsetLoop]. eauto_eff. Qed.
Hint Resolve eff_subsetLoop : eff.
Lemma eff_internalSubset : forall n, eff TDecl (parseInternalSubset E S H n).
Proof. pose proof closed_decl as TC. intros; unfold parseInternalSubset. eauto_eff. Qed.

(* ---- triples over the document grammar ---- *)
Definition dtri {A} (i : Z) (p : phase) (i' : Z) (q : phase) (m : M A) : Prop := forall s, inSubset s = i -> exists evs,
  tr (snd (m s)) = evs ++ tr s /\ resp (fst (m s)) evs /\
  exists ph, drun p (rev (map fst evs)) = Some ph /\
    (isret (fst (m s)) = true -> ph = q /\ inSubset (snd (m s)) = i').

Lemma dtri_bind : forall A B i p i1 q i2 r (m : M A) (f : A -> M B),
  dtri i p i1 q m -> (forall a, dtri i1 q i2 r (f a)) -> dtri i p i2 r (bind S m f).
Proof.
  intros A B i p i1 q i2 r m f Hm Hf s Hi. destruct (Hm s Hi) as (e1 & A1 & A2 & ph & A3 & A4). unfold bind.
  destruct (m s) as [[a|e| |] s1]; cbn [fst snd isret] in *.
  - destruct (A4 eq_refl) as [-> Hi1]. destruct (Hf a s1 Hi1) as (e2 & B1 & B2 & ph2 & B3 & B4).
    exists (e2 ++ e1). split; [rewrite B1, A1, app_assoc; auto|]. split; [apply resp_app; auto; eapply resp_ret_ok; eauto|].
    exists ph2. split; auto. rewrite map_app, rev_app_distr, drun_app, A3; auto.
  - exists e1. split; auto. split; [eapply resp_cast; [|eauto]; simpl; auto|]. exists ph; split; auto; discriminate.
  - exists e1. split; auto. split; [eapply resp_cast; [|eauto]; simpl; auto|]. exists ph; split; auto; discriminate.
  - exists e1. split; auto. split; [eapply resp_cast; [|eauto]; simpl; auto|]. exists ph; split; auto; discriminate.
Qed.
Lemma dtri_eff : forall (T : tkind) A i p q (m : M A), eff T m ->
  (forall b evs, T i b evs -> exists ph, drun p (rev evs) = Some ph /\ (b = true -> ph = q)) -> dtri i p i q m.
Proof.
  intros T A i p q m Hm HT s Hi. destruct (Hm s) as (evs & A1 & A2 & A3 & A4). exists evs. split; auto. split; auto.
  rewrite Hi in A2. destruct (HT _ _ A2) as (ph & B1 & B2). exists ph; split; auto. intros Hr; split; auto.
  destruct (A4 Hr) as (_&_&F&_). congruence.
Qed.
Lemma dtri_none : forall A i p (m : M A), eff TNone m -> dtri i p i p m.
Proof. intros A i p m Hm. eapply dtri_eff; [exact Hm|]. intros b evs ->. exists p; auto. Qed.
Lemma dtri_wrap : forall A i p i' q (m : M A), dtri i p i' q m -> dtri i p i' q (wrap S m).
Proof.
  intros A i p i' q m Hm s Hi. destruct (Hm s Hi) as (evs & H1 & H2 & ph & H3 & H4). exists evs. unfold wrap.
  destruct (m s) as [[a|e| |] s']; simpl in *; split; auto; split; eauto.
  destruct H2 as [[G1 G2]|[(e0&k&rest&G1&G2&G3)|(e0&rest&G1&G2&G3)]]; [left|right;left|discriminate].
  - split; auto. simpl in *. apply nohandler_ctx; auto.
  - exists e0, k, rest; repeat split; auto. right. destruct G3 as [G3|G3]; inversion G3; reflexivity.
Qed.
Lemma dtri_emit : forall i p q e, dstep p e = Some q -> dtri i p i q (emit S H e).
Proof.
  intros i p q e He s Hi. unfold emit, wrap, emit_raw. destruct (h_event _ _ _ _) as [h' r]. exists [(e, r)].
  destruct r; cbn; rewrite He; (split; [reflexivity|]).
  - split; [left; simpl; auto|]. exists q; auto.
  - split; [left; simpl; auto|]. exists q; auto.
  - split; [right; left; exists e, k, []; auto|]. exists q; split; auto; discriminate.
  - split; [right; right; exists e, []; auto|]. exists q; split; auto; discriminate.
Qed.
Lemma dtri_subset : forall i p i', dtri i p i' p (modify S (set_inSubset S i')).
Proof. intros i p i' s Hi. exists []. simpl. split; auto. split; [left; simpl; auto|]. exists p; auto. Qed.
Lemma dtri_failw : forall A i p i' q k, dtri i p i' q (@failw S A k).
Proof. intros A i p i' q k s Hi. exists []. simpl. split; auto. split; [left; simpl; auto|]. exists p; split; auto; discriminate. Qed.
Lemma dtri_misc : forall i p n, (p = PProlog \/ p = PAfterSubset \/ p = PEpilog) -> dtri i p i p (parseMisc E S H n).
Proof.
  intros i p n Hp. eapply dtri_eff; [apply eff_misc|]. intros b evs He. exists p; split; auto.
  apply drun_misc; auto. rewrite forallb_rev; auto.
Qed.
Lemma dtri_element : forall i p n, (p = PProlog \/ p = PAfterSubset) ->
  dtri i p i PEpilog (parseElement E S H n (parseContent E S H n)).
Proof.
  intros i p n Hp. eapply dtri_eff; [apply eff_element0, eff_content|]. intros b evs He.
  eapply drun_element; eauto.
Qed.
Hint Resolve closed_none : eff.

Lemma dtri_docTypeDecl : dtri 1 PProlog 1 PSubset (parseDocTypeDecl E S H).
Proof.
  pose proof closed_none as TC. unfold parseDocTypeDecl.
  eapply dtri_bind; [apply dtri_none; eauto with eff|]; intros a.
  destruct (negb a); [apply dtri_failw|].
  eapply dtri_bind; [apply dtri_none; eauto with eff|]; intros a0.
  eapply dtri_bind; [apply dtri_none; eauto with eff|]; intros a1.
  eapply dtri_bind; [apply dtri_none; eauto with eff|]; intros a2.
  eapply dtri_bind; [apply dtri_none; eauto with eff|]; intros a3.
  eapply dtri_bind; [apply dtri_emit; reflexivity|]; intros a4.
  eapply dtri_bind; [apply dtri_none; eauto with eff|]; intros a5.
  destruct (a5 =? 91); [apply dtri_none; eauto with eff|].
  destruct (negb (a5 =? 62)); [apply dtri_failw|apply dtri_none; eauto with eff].
Qed.
Lemma dtri_DTD : forall n, dtri 0 PProlog 0 PAfterSubset (parseDTD E S H n).
Proof.
  pose proof closed_none as TC. intros n. unfold parseDTD.
  eapply dtri_bind; [apply dtri_subset|]; intros _.
  eapply dtri_bind; [apply dtri_wrap, dtri_docTypeDecl|]; intros _.
  eapply dtri_bind; [apply dtri_none; eauto with eff|]; intros a.
  apply dtri_bind with (i1 := 1) (q := PSubset).
  { destruct a; [|apply dtri_none; eauto with eff]. apply dtri_wrap.
    eapply dtri_eff; [apply eff_internalSubset|]. intros b evs He. exists PSubset; split; auto.
    apply drun_decl. rewrite forallb_rev. apply He; discriminate. }
  intros _.
  eapply dtri_bind; [apply dtri_subset|]; intros _.
  eapply dtri_bind; [apply dtri_none; eauto with eff|]; intros name.
  eapply dtri_bind; [apply dtri_emit; reflexivity|]; intros _.
  eapply dtri_bind; [apply dtri_subset|]; intros _.
  eapply dtri_bind; [apply dtri_none; eauto with eff|]; intros _.
  apply dtri_wrap, dtri_misc; auto.
Qed.

Lemma dtri_document : forall n, dtri 0 PInit 0 PEnded (parseDocument E S H n).
Proof.
  pose proof closed_none as TC. intros n. unfold parseDocument.
  eapply dtri_bind; [apply dtri_emit; reflexivity|]; intros _.
  eapply dtri_bind.
  { instantiate (1 := PLocated). instantiate (1 := 0).
    intros s Hi. exists []. destruct (detectEncoding (inp s)) as [[enc rest]|]; simpl;
      (split; [reflexivity|]); (split; [left; simpl; auto|]); exists PLocated; auto. }
  intros detected.
  eapply dtri_bind; [apply dtri_none; eauto with eff|]; intros d. destruct d; [apply dtri_failw|].
  eapply dtri_bind; [apply dtri_none; eauto with eff|]; intros decl.
  apply dtri_bind with (i1 := 0) (q := PLocated).
  { destruct decl; [|apply dtri_none; eauto with eff].
    eapply dtri_bind; [apply dtri_none; eauto with eff|]; intros x.
    intros s Hi. exists []. simpl. split; auto. split; [left; simpl; auto|]. exists PLocated; auto. }
  intros _.
  eapply dtri_bind.
  { apply dtri_wrap. instantiate (1 := PLocated). instantiate (1 := 0).
    intros s Hi. exists []. unfold switchEncoding. destruct (Load _ _); simpl; (split; [reflexivity|]);
      (split; [left; simpl; auto|]); exists PLocated; split; auto; discriminate. }
  intros _.
  eapply dtri_bind; [apply dtri_emit; reflexivity|]; intros _.
  eapply dtri_bind; [apply dtri_wrap, dtri_misc; auto|]; intros _.
  eapply dtri_bind; [apply dtri_none; eauto with eff|]; intros dt.
  assert (Hrest : forall p, (p = PProlog \/ p = PAfterSubset) -> dtri 0 p 0 PEnded
    (bind S (mskip S) (fun _ => bind S (mpeek E S) (fun c => if negb (c =? 60) then failw S "ErrEmptyDocument"
     else bind S (wrap S (parseElement E S H n (parseContent E S H n))) (fun _ => bind S (wrap S (parseMisc E S H n)) (fun _ =>
      bind S (mdone S) (fun fin => if negb fin then failw S "ErrDocumentEnd" else emit S H EEndDocument))))))).
  { intros p Hp.
    eapply dtri_bind; [apply dtri_none; eauto with eff|]; intros _.
    eapply dtri_bind; [apply dtri_none; eauto with eff|]; intros c.
    destruct (negb (c =? 60)); [apply dtri_failw|].
    eapply dtri_bind; [apply dtri_wrap, dtri_element; auto|]; intros _.
    eapply dtri_bind; [apply dtri_wrap, dtri_misc; auto|]; intros _.
    eapply dtri_bind; [apply dtri_none; eauto with eff|]; intros fin.
    destruct (negb fin); [apply dtri_failw|apply dtri_emit; reflexivity]. }
  destruct dt.
  - eapply dtri_bind; [apply dtri_DTD|]; intros _. apply Hrest; auto.
  - eapply dtri_bind; [apply dtri_none; eauto with eff|]; intros _. apply Hrest; auto.
Qed.

Lemma parse_tri : forall n h bytes, exists evs,
  tr (snd (Parse E S H n h bytes)) = evs /\ resp (fst (Parse E S H n h bytes)) evs /\
  exists ph, drun PInit (rev (map fst evs)) = Some ph /\ (isret (fst (Parse E S H n h bytes)) = true -> ph = PEnded).
Proof.
  intros n h bytes. unfold Parse.
  match goal with |- context [?m (init S h bytes)] => assert (Hd : dtri 0 PInit 0 PEnded m) end.
  { try apply dtri_wrap; apply dtri_document. }
  destruct (Hd (init S h bytes) eq_refl) as (evs & A1 & A2 & ph & A3 & A4).
  exists evs. split; [rewrite A1; simpl; apply app_nil_r|]. split; auto. exists ph; split; auto. intros Hr; apply A4; auto.
Qed.
End Doc.

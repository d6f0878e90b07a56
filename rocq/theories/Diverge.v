(* A handler that fails, next to one that never does: as long as the first
   answers nil both drive the parser alike; once it fails its trace says so.
   With C19 (a failure ends the parse) this shows that a parse succeeds only if
   the handler accepts every event the document stands for. *)
From Verif Require Import Base Utf8 Encoding Scan Parser Sim Effects.

(* a state that no longer follows: the trace has a refusal, or the handler's
   state says so (B) *)
Definition bad {S} (B : S -> Prop) (s : pst S) : Prop := (exists e r, In (e, r) (tr s) /\ okr (e, r) = false) \/ B (hs s).

(* [H2] answers as [H1] as long as that accepts and its state is not B; B stays *)
Record shadow {S1 S2} (R : S1 -> S2 -> Prop) (B : S1 -> Prop) (H1 : handler S1) (H2 : handler S2) : Prop := {
  sh_event : forall a b v e, R a b -> okr (e, snd (h_event H1 a v e)) = false \/ B (fst (h_event H1 a v e)) \/
    R (fst (h_event H1 a v e)) (fst (h_event H2 b v e)) /\ rsim (snd (h_event H1 a v e)) (snd (h_event H2 b v e));
  sh_entity : forall a b v n, R a b -> B (fst (h_getEntity H1 a v n)) \/
    R (fst (h_getEntity H1 a v n)) (fst (h_getEntity H2 b v n)) /\ snd (h_getEntity H1 a v n) = snd (h_getEntity H2 b v n);
  sh_pentity : forall a b v n, R a b -> B (fst (h_getPEntity H1 a v n)) \/
    R (fst (h_getPEntity H1 a v n)) (fst (h_getPEntity H2 b v n)) /\ snd (h_getPEntity H1 a v n) = snd (h_getPEntity H2 b v n);
  sh_orig : forall a b e l, R a b -> R (h_setOrig H1 a e l) (h_setOrig H2 b e l);
  sh_mixed : forall a b n, R a b -> h_mixed H1 a n = h_mixed H2 b n;
  sh_doc : forall a b n, R a b -> h_docEntity H1 a n = h_docEntity H2 b n;
  sh_attr : forall a b l p v, R a b -> B (fst (h_createAttr H1 a l p v)) \/
    R (fst (h_createAttr H1 a l p v)) (fst (h_createAttr H2 b l p v)) /\ snd (h_createAttr H1 a l p v) = snd (h_createAttr H2 b l p v);
  sh_enter : forall a b, R a b -> R (h_chunkEnter H1 a) (h_chunkEnter H2 b);
  sh_leave : forall a b a' b', R a b -> R a' b' -> R (h_chunkLeave H1 a a') (h_chunkLeave H2 b b');
  st_event : forall a v e, B a -> B (fst (h_event H1 a v e));
  st_entity : forall a v n, B a -> B (fst (h_getEntity H1 a v n));
  st_pentity : forall a v n, B a -> B (fst (h_getPEntity H1 a v n));
  st_orig : forall a e l, B a -> B (h_setOrig H1 a e l);
  st_attr : forall a l p v, B a -> B (fst (h_createAttr H1 a l p v));
  st_enter : forall a, B a -> B (h_chunkEnter H1 a);
  st_leave : forall a a', B a' -> B (h_chunkLeave H1 a a')
}.

Section Sim.
Variables S1 S2 : Type.
Variable R : S1 -> S2 -> Prop.
Variable B : S1 -> Prop.
Variable E : env.
Variable H1 : handler S1.
Variable H2 : handler S2.
Hypothesis HS : shadow R B H1 H2.

Notation ssim := (Sim.ssim R).
Definition grows {A} (m1 : M S1 A) : Prop := forall a, (exists t, tr (snd (m1 a)) = t ++ tr a) /\ (B (hs a) -> B (hs (snd (m1 a)))).
Definition same {A} (r1 : outcome gerr A * pst S1) (r2 : outcome gerr A * pst S2) : Prop := fst r1 = fst r2 /\ ssim (snd r1) (snd r2).
Definition dsim {A} (m1 : M S1 A) (m2 : M S2 A) : Prop := grows m1 /\ forall a b, ssim a b -> bad B (snd (m1 a)) \/ same (m1 a) (m2 b).

Lemma bad_grows A (m : M S1 A) s : grows m -> bad B s -> bad B (snd (m s)).
Proof.
  intros G [(e & r & I & K)|Hb]; destruct (G s) as ((t & Ht) & Hk); [left|right; auto].
  exists e, r. split; [|exact K]. rewrite Ht. apply in_or_app. right. exact I.
Qed.
Lemma dsim_still A (m1 : M S1 A) m2 : (forall a, tr (snd (m1 a)) = tr a /\ hs (snd (m1 a)) = hs a) -> (forall a b, ssim a b -> same (m1 a) (m2 b)) -> dsim m1 m2.
Proof. intros G S. split; [intros a; destruct (G a) as [G1 G2]; split; [exists []; exact G1|rewrite G2; auto]|intros a b Hs; right; apply S, Hs]. Qed.
(* the handler is asked, and may go astray *)
Lemma dsim_asked A (m1 : M S1 A) m2 : (forall a, tr (snd (m1 a)) = tr a /\ (B (hs a) -> B (hs (snd (m1 a))))) ->
  (forall a b, ssim a b -> B (hs (snd (m1 a))) \/ same (m1 a) (m2 b)) -> dsim m1 m2.
Proof. intros G S. split; [intros a; destruct (G a) as [G1 G2]; split; [exists []; exact G1|exact G2]|intros a b Hs; destruct (S a b Hs); [left; right|right]; auto]. Qed.
Lemma dsim_ret : forall A (x : A), dsim (ret _ x) (ret _ x). Proof. intros A x. apply dsim_still; [split; reflexivity|]. intros a b Hs; split; auto. Qed.
Lemma dsim_fail : forall A e, dsim (@fail _ A e) (fail _ e). Proof. intros A x. apply dsim_still; [split; reflexivity|]. intros a b Hs; split; auto. Qed.
Lemma dsim_failw : forall A e, dsim (@failw _ A e) (failw _ e). Proof. intros A x. apply dsim_still; [split; reflexivity|]. intros a b Hs; split; auto. Qed.
Lemma dsim_pan : forall A, dsim (@pan _ A) (pan _). Proof. intros A. apply dsim_still; [split; reflexivity|]. intros a b Hs; split; auto. Qed.
Lemma dsim_oof : forall A, dsim (@oof _ A) (oof _). Proof. intros A. apply dsim_still; [split; reflexivity|]. intros a b Hs; split; auto. Qed.
Lemma dsim_mlift : forall A (o : outcome gerr A), dsim (mlift _ o) (mlift _ o). Proof. intros A o. apply dsim_still; [split; reflexivity|]. intros a b Hs; split; auto. Qed.
Lemma dsim_bind : forall A C (m1 : M S1 A) m2 (f1 : A -> M S1 C) f2, dsim m1 m2 -> (forall x, dsim (f1 x) (f2 x)) ->
  dsim (bind _ m1 f1) (bind _ m2 f2).
Proof.
  intros A C m1 m2 f1 f2 [G Hm] Hf. split.
  - intros a. destruct (G a) as ((t & Ht) & Hk). unfold bind. destruct (m1 a) as [o1 a']. simpl in Ht, Hk. destruct o1 as [x| | |]; simpl; eauto.
    destruct (proj1 (Hf x) a') as ((t' & Ht') & Hk'). split; [|auto]. exists (t' ++ t). rewrite Ht', Ht, app_assoc. reflexivity.
  - intros a b Hs. destruct (Hm a b Hs) as [Bd|[E1 E2]]; unfold bind.
    + left. destruct (m1 a) as [o1 a']. simpl in Bd. destruct o1 as [x| | |]; simpl; auto. apply bad_grows; [apply Hf|exact Bd].
    + destruct (m1 a) as [o1 a'], (m2 b) as [o2 b']. simpl in *. subst o2. destruct o1; simpl; try (right; split; auto; fail). apply Hf; auto.
Qed.
Lemma dsim_wrap : forall A (m1 : M S1 A) m2, dsim m1 m2 -> dsim (wrap _ m1) (wrap _ m2).
Proof.
  intros A m1 m2 [G Hm]. split.
  - intros a. destruct (G a) as ((t & Ht) & Hk). unfold wrap. destruct (m1 a) as [[| | |] a']; simpl in *; eauto.
  - intros a b Hs. unfold wrap. destruct (Hm a b Hs) as [Bd|[E1 E2]].
    + left. destruct (m1 a) as [[| | |] a']; simpl in *; auto.
    + right. destruct (m1 a) as [o1 a'], (m2 b) as [o2 b']. simpl in *. subst o2. destruct o1; simpl; split; auto.
Qed.
Lemma dsim_always : forall A (m1 : M S1 A) m2 c, dsim m1 m2 -> dsim (always _ m1 c) (always _ m2 c).
Proof.
  intros A m1 m2 c [G Hm]. split.
  - intros a. destruct (G a) as ((t & Ht) & Hk). unfold always. destruct (m1 a) as [o1 a']. simpl in *. destruct o1; simpl; eauto.
  - intros a b Hs. unfold always. destruct (Hm a b Hs) as [Bd|[E1 E2]].
    + left. destruct (m1 a) as [o1 a']. simpl in *. destruct o1; simpl; auto.
    + right. destruct (m1 a) as [o1 a'], (m2 b) as [o2 b']. simpl in *. subst o2. destruct o1; simpl;
      try rewrite (ss_inp _ _ _ _ _ E2); split; simpl; auto using ssim_inp.
Qed.
Lemma dsim_lift : forall A (p : P A), dsim (lift _ p) (lift _ p).
Proof.
  intros A p. apply dsim_still.
  - intros a. unfold lift. destruct (p (inp a)); split; reflexivity.
  - intros a b Hs. unfold lift. rewrite (ss_inp _ _ _ _ _ Hs). destruct (p (inp b)); split; simpl; auto using ssim_inp.
Qed.
Lemma dsim_get : forall A (f : pst S1 -> A) g, (forall a b, ssim a b -> f a = g b) -> dsim (get _ f) (get _ g).
Proof. intros A f g Hf. apply dsim_still; [split; reflexivity|]. intros a b Hs; split; simpl; auto. rewrite (Hf a b Hs); auto. Qed.
Lemma dsim_modify : forall f g, (forall a, tr (f a) = tr a /\ hs (f a) = hs a) -> (forall a b, ssim a b -> ssim (f a) (g b)) -> dsim (modify _ f) (modify _ g).
Proof. intros f g Ht Hf. apply dsim_still; [exact Ht|]. intros a b Hs; split; simpl; auto. Qed.
Lemma dsim_emit_raw : forall e, dsim (emit_raw _ H1 e) (emit_raw _ H2 e).
Proof.
  intros e. split.
  - intros a. pose proof (st_event _ _ _ _ HS (hs a) (the_view S1 a) e) as Hk. unfold emit_raw. destruct (h_event H1 _ _ e) as [x r]. split; [exists [(e, r)]; destruct r; reflexivity|].
    simpl in Hk. destruct r; exact Hk.
  - intros a b Hs. unfold emit_raw. rewrite (view_sim _ _ _ _ _ Hs).
    destruct (sh_event _ _ _ _ HS _ _ (the_view S2 b) e (ss_hs _ _ _ _ _ Hs)) as [Bd|[Bd|[Hr Hq]]].
    + left. left. destruct (h_event H1 _ _ e) as [x r]. simpl in Bd. exists e, r. split; [|exact Bd]. destruct r; left; reflexivity.
    + left. right. destruct (h_event H1 _ _ e) as [x r]. simpl in Bd. destruct r; exact Bd.
    + right. destruct (h_event H1 _ _ e) as [x r], (h_event H2 _ _ e) as [y r']. simpl in *.
      assert (ssim (add_event _ x (e, r) a) (add_event _ y (e, r') b)).
      { destruct Hs; constructor; auto. simpl. constructor; auto. }
      destruct r, r'; simpl in *; try tauto; subst; split; auto.
Qed.
Lemma dsim_emit : forall e, dsim (emit _ H1 e) (emit _ H2 e).
Proof. intros; apply dsim_wrap, dsim_emit_raw. Qed.
Lemma dsim_queryE : forall n, dsim (queryEntity _ H1 n) (queryEntity _ H2 n).
Proof.
  intros n. apply dsim_asked.
  - intros a. pose proof (st_entity _ _ _ _ HS (hs a) (the_view S1 a) n) as Hk. unfold queryEntity. destruct (h_getEntity H1 _ _ n) as [x []]; split; try reflexivity; exact Hk.
  - intros a b Hs. unfold queryEntity. rewrite (view_sim _ _ _ _ _ Hs).
    destruct (sh_entity _ _ _ _ HS _ _ (the_view S2 b) n (ss_hs _ _ _ _ _ Hs)) as [Bd|[Hr Hq]].
    { left. destruct (h_getEntity H1 _ _ n) as [x []]; exact Bd. }
    right. destruct (h_getEntity H1 _ _ n) as [x r], (h_getEntity H2 _ _ n) as [y r']. simpl in *. subst.
    destruct r'; split; simpl; auto using ssim_hs.
Qed.
Lemma dsim_queryP : forall n, dsim (queryPEntity _ H1 n) (queryPEntity _ H2 n).
Proof.
  intros n. apply dsim_asked.
  - intros a. pose proof (st_pentity _ _ _ _ HS (hs a) (the_view S1 a) n) as Hk. unfold queryPEntity. destruct (h_getPEntity H1 _ _ n) as [x []]; split; try reflexivity; exact Hk.
  - intros a b Hs. unfold queryPEntity. rewrite (view_sim _ _ _ _ _ Hs).
    destruct (sh_pentity _ _ _ _ HS _ _ (the_view S2 b) n (ss_hs _ _ _ _ _ Hs)) as [Bd|[Hr Hq]].
    { left. destruct (h_getPEntity H1 _ _ n) as [x []]; exact Bd. }
    right. destruct (h_getPEntity H1 _ _ n) as [x r], (h_getPEntity H2 _ _ n) as [y r']. simpl in *. subst.
    destruct r'; split; simpl; auto using ssim_hs.
Qed.
Lemma dsim_getEntity : forall n, dsim (getEntity _ H1 n) (getEntity _ H2 n).
Proof.
  intros n. apply dsim_still.
  - intros a. unfold getEntity. destruct (_ =? 0); [split; reflexivity|]. destruct (h_docEntity _ _ _); split; reflexivity.
  - intros a b Hs. unfold getEntity. rewrite (ss_sub _ _ _ _ _ Hs), (sh_doc _ _ _ _ HS _ _ n (ss_hs _ _ _ _ _ Hs)).
    destruct (_ =? 0); [split; simpl; auto|]. destruct (h_docEntity _ _ _); split; simpl; auto.
Qed.
Lemma dsim_areBlanks : forall t, dsim (areBlanks E _ H1 t) (areBlanks E _ H2 t).
Proof.
  intros t. apply dsim_still; [split; reflexivity|]. intros a b Hs. unfold areBlanks. split; simpl; auto. rewrite (ss_node _ _ _ _ _ Hs), (ss_inp _ _ _ _ _ Hs).
  destruct (negb _); auto. destruct (nodeTab b); auto. rewrite (sh_mixed _ _ _ _ HS _ _ _ (ss_hs _ _ _ _ _ Hs)); auto.
Qed.
(* choices that look at the input first *)
Lemma dsim_look A (m1 : list Z -> M S1 A) m2 : (forall l, dsim (m1 l) (m2 l)) -> dsim (fun s => m1 (inp s) s) (fun s => m2 (inp s) s).
Proof.
  intros K. split; [intros a; apply (K (inp a))|]. intros a b Hs. cbv beta. rewrite (ss_inp _ _ _ _ _ Hs). apply (K (inp b)), Hs.
Qed.
End Sim.

Arguments dsim {S1 S2} R B {A} m1 m2.
Create HintDb dsim.
Global Hint Resolve dsim_ret dsim_fail dsim_failw dsim_pan dsim_oof dsim_mlift dsim_lift dsim_emit_raw dsim_emit dsim_queryE
  dsim_queryP dsim_getEntity dsim_areBlanks : dsim.
Global Hint Extern 2 (dsim _ _ (mpeek _ _) _) => apply dsim_lift : dsim.
Global Hint Extern 2 (dsim _ _ (mpeekn _ _ _) _) => apply dsim_lift : dsim.
Global Hint Extern 2 (dsim _ _ (madvance _ _ _) _) => apply dsim_lift : dsim.
Global Hint Extern 2 (dsim _ _ (mhas _ _) _) => apply dsim_lift : dsim.
Global Hint Extern 2 (dsim _ _ (mconsume _ _) _) => apply dsim_lift : dsim.
Global Hint Extern 2 (dsim _ _ (mskip _) _) => apply dsim_lift : dsim.
Ltac dfields := let a := fresh in let b := fresh in let q := fresh in intros a b q; destruct q;
  try match goal with H : Forall2 _ (tr a) _ |- _ => rewrite ?(same_length _ _ _ _ _ H) end;
  first [ solve [auto] | solve [repeat match goal with H : ?f a = _ |- _ => rewrite H end; reflexivity]
        | solve [constructor; simpl; auto; congruence] ].
Global Hint Extern 2 (dsim _ _ (get _ _) _) => apply dsim_get; dfields : dsim.
Global Hint Extern 2 (dsim _ _ (mdone _) _) => apply dsim_get; dfields : dsim.
Global Hint Extern 2 (dsim _ _ (modify _ _) _) => apply dsim_modify; [split; reflexivity|dfields] : dsim.
Ltac dsimstep :=
  match goal with
  | |- forall _, _ => intro
  | |- dsim _ _ (bind _ _ _) _ => apply dsim_bind
  | |- dsim _ _ (wrap _ _) _ => apply dsim_wrap
  | |- dsim _ _ (always _ _ _) _ => apply dsim_always
  | |- dsim _ _ (if ?b then _ else _) _ => destruct b
  | |- dsim _ _ (match ?x with _ => _ end) _ => destruct x
  | |- dsim _ _ (let _ := _ in _) _ => cbv zeta
  end.
Ltac dsimauto := repeat (first [ solve [eauto with dsim] | dsimstep ]).

Section Funs.
Variables S1 S2 : Type.
Variable R : S1 -> S2 -> Prop.
Variable B : S1 -> Prop.
Variable E : env.
Variable H1 : handler S1.
Variable H2 : handler S2.
Hypothesis HS : shadow R B H1 H2.

Lemma dsim_PI : dsim R B (parsePI E _ H1) (parsePI E _ H2). Proof. unfold parsePI. dsimauto. Qed.
Lemma dsim_comment : dsim R B (parseComment E _ H1) (parseComment E _ H2). Proof. unfold parseComment. dsimauto. Qed.
Lemma dsim_charData : forall c, dsim R B (parseCharData E _ H1 c) (parseCharData E _ H2 c). Proof. intros; unfold parseCharData. dsimauto. Qed.
Hint Resolve dsim_PI dsim_comment dsim_charData : dsim.
Lemma dsim_CDSect : dsim R B (parseCDSect E _ H1) (parseCDSect E _ H2). Proof. unfold parseCDSect. dsimauto. Qed.
Lemma dsim_entityRef : dsim R B (parseEntityRef E _ H1) (parseEntityRef E _ H2). Proof. unfold parseEntityRef. dsimauto. Qed.
Hint Resolve dsim_CDSect dsim_entityRef : dsim.
Lemma dsim_attrValueLoop : forall n q nm b sp en, dsim R B (attrValueLoop E _ H1 n q nm b sp en) (attrValueLoop E _ H2 n q nm b sp en).
Proof. induction n; intros; [simpl; eauto with dsim|]. cbn [attrValueLoop]. dsimauto. Qed.
Hint Resolve dsim_attrValueLoop : dsim.
Lemma dsim_attributeValue : forall n nm, dsim R B (parseAttributeValue E _ H1 n nm) (parseAttributeValue E _ H2 n nm).
Proof. intros; unfold parseAttributeValue, parseAttributeValueInternal. dsimauto. Qed.
Hint Resolve dsim_attributeValue : dsim.
Lemma dsim_attribute : forall n nm, dsim R B (parseAttribute E _ H1 n nm) (parseAttribute E _ H2 n nm).
Proof. intros; unfold parseAttribute. dsimauto. Qed.
Lemma dsim_afterNS : dsim R B (afterNSDecl E _) (afterNSDecl E _).
Proof. intros; unfold afterNSDecl. dsimauto. Qed.
Hint Resolve dsim_attribute dsim_afterNS : dsim.
Lemma dsim_attrLoop : forall n l attrs k, dsim R B (attrLoop E _ H1 n l attrs k) (attrLoop E _ H2 n l attrs k).
Proof. induction n; intros; [simpl; eauto with dsim|]. cbn [attrLoop]. dsimauto. Qed.
Hint Resolve dsim_attrLoop : dsim.
Lemma dsim_startTag : forall n, dsim R B (parseStartTag E _ H1 n) (parseStartTag E _ H2 n).
Proof. intros; unfold parseStartTag. dsimauto. Qed.
Lemma dsim_endTag : dsim R B (parseEndTag E _ H1) (parseEndTag E _ H2).
Proof. intros; unfold parseEndTag. dsimauto. Qed.
Hint Resolve dsim_startTag dsim_endTag : dsim.
Lemma dsim_element : forall n c1 c2, dsim R B c1 c2 -> dsim R B (parseElement E _ H1 n c1) (parseElement E _ H2 n c2).
Proof. intros; unfold parseElement. dsimauto. Qed.
Lemma dsim_chunk : forall t c1 c2, dsim R B c1 c2 -> dsim R B (parseBalancedChunk _ H1 c1 t) (parseBalancedChunk _ H2 c2 t).
Proof.
  intros t c1 c2 [G Hc]. split.
  - intros a. unfold parseBalancedChunk. cbv zeta. destruct (40 <? depth a + 1); [split; [exists []; reflexivity|auto]|].
    match goal with |- context [c1 ?x] => set (a0 := x) end.
    destruct (G a0) as ((u & Hu) & Hk). destruct (c1 a0) as [o1 a1]. simpl in *. split; [exists u; exact Hu|].
    intros Hb. apply (st_leave _ _ _ _ HS), Hk, (st_enter _ _ _ _ HS), Hb.
  - intros a b Hs. unfold parseBalancedChunk. cbv zeta. rewrite (ss_depth _ _ _ _ _ Hs).
    destruct (40 <? depth b + 1); [right; split; auto|].
    match goal with |- context [c1 ?x] => set (a0 := x) end.
    match goal with |- context [c2 ?x] => set (b0 := x) end.
    assert (Hs0 : ssim R a0 b0). { destruct Hs; constructor; simpl; auto. apply (sh_enter _ _ _ _ HS); auto. }
    destruct (Hc _ _ Hs0) as [[(e & r & I & K)|Bd]|[E1 E2]]; destruct (c1 a0) as [o1 a1], (c2 b0) as [o2 b1]; simpl in *.
    + left. left. exists e, r. split; [exact I|exact K].
    + left. right. apply (st_leave _ _ _ _ HS), Bd.
    + right. split; auto. destruct Hs, E2; constructor; simpl; auto. apply (sh_leave _ _ _ _ HS); auto.
Qed.
Hint Resolve dsim_element dsim_chunk : dsim.
Lemma dsim_reference : forall c1 c2, dsim R B c1 c2 -> dsim R B (parseReference E _ H1 c1) (parseReference E _ H2 c2).
Proof. intros; unfold parseReference. dsimauto. Qed.
Hint Resolve dsim_reference : dsim.
Lemma dsim_content : forall n, dsim R B (parseContent E _ H1 n) (parseContent E _ H2 n).
Proof.
  induction n; [simpl; eauto with dsim|]. cbn [parseContent]. dsimauto.
  apply (dsim_look _ _ R B _
    (fun l => if has_prefix (s_ "</") l then ret _ tt
         else if has_prefix (s_ "<?") l then bind _ (wrap _ (parsePI E _ H1)) (fun _ => parseContent E _ H1 n)
         else if has_prefix (s_ "<![CDATA[") l then bind _ (wrap _ (parseCDSect E _ H1)) (fun _ => parseContent E _ H1 n)
         else if has_prefix (s_ "<!--") l then bind _ (wrap _ (parseComment E _ H1)) (fun _ => parseContent E _ H1 n)
         else if has_prefix (s_ "<") l then bind _ (wrap _ (parseElement E _ H1 n (parseContent E _ H1 n))) (fun _ => parseContent E _ H1 n)
         else if has_prefix (s_ "&") l then bind _ (wrap _ (parseReference E _ H1 (parseContent E _ H1 n))) (fun _ => parseContent E _ H1 n)
         else bind _ (parseCharData E _ H1 false) (fun _ => parseContent E _ H1 n))
    (fun l => if has_prefix (s_ "</") l then ret _ tt
         else if has_prefix (s_ "<?") l then bind _ (wrap _ (parsePI E _ H2)) (fun _ => parseContent E _ H2 n)
         else if has_prefix (s_ "<![CDATA[") l then bind _ (wrap _ (parseCDSect E _ H2)) (fun _ => parseContent E _ H2 n)
         else if has_prefix (s_ "<!--") l then bind _ (wrap _ (parseComment E _ H2)) (fun _ => parseContent E _ H2 n)
         else if has_prefix (s_ "<") l then bind _ (wrap _ (parseElement E _ H2 n (parseContent E _ H2 n))) (fun _ => parseContent E _ H2 n)
         else if has_prefix (s_ "&") l then bind _ (wrap _ (parseReference E _ H2 (parseContent E _ H2 n))) (fun _ => parseContent E _ H2 n)
         else bind _ (parseCharData E _ H2 false) (fun _ => parseContent E _ H2 n))).
  intros l. dsimauto.
Qed.
Lemma dsim_misc : forall n, dsim R B (parseMisc E _ H1 n) (parseMisc E _ H2 n).
Proof.
  induction n; [simpl; eauto with dsim|]. cbn [parseMisc]. dsimauto.
  apply (dsim_look _ _ R B _
    (fun l => if has_prefix (s_ "<?") l then bind _ (wrap _ (parsePI E _ H1)) (fun _ => parseMisc E _ H1 n)
         else if has_prefix (s_ "<!--") l then bind _ (wrap _ (parseComment E _ H1)) (fun _ => parseMisc E _ H1 n)
         else if isBlankCh (peek E l) then bind _ (mskip _) (fun _ => parseMisc E _ H1 n) else ret _ tt)
    (fun l => if has_prefix (s_ "<?") l then bind _ (wrap _ (parsePI E _ H2)) (fun _ => parseMisc E _ H2 n)
         else if has_prefix (s_ "<!--") l then bind _ (wrap _ (parseComment E _ H2)) (fun _ => parseMisc E _ H2 n)
         else if isBlankCh (peek E l) then bind _ (mskip _) (fun _ => parseMisc E _ H2 n) else ret _ tt)).
  intros l. dsimauto.
Qed.
Hint Resolve dsim_content dsim_misc : dsim.
Lemma dsim_docTypeDecl : dsim R B (parseDocTypeDecl E _ H1) (parseDocTypeDecl E _ H2). Proof. unfold parseDocTypeDecl. dsimauto. Qed.
Lemma dsim_PERef : dsim R B (parsePEReference E _ H1) (parsePEReference E _ H2). Proof. unfold parsePEReference. dsimauto. Qed.
Lemma dsim_elementDecl : forall n, dsim R B (parseElementDecl E _ H1 n) (parseElementDecl E _ H2 n). Proof. intros; unfold parseElementDecl. dsimauto. Qed.
Lemma dsim_unquoted : forall n, dsim R B (unquotedEntity E _ H1 n) (unquotedEntity E _ H2 n). Proof. intros; unfold unquotedEntity. dsimauto. Qed.
Hint Resolve dsim_docTypeDecl dsim_PERef dsim_elementDecl dsim_unquoted : dsim.
Lemma dsim_setOrig : forall e l, dsim R B (modify _ (fun s => set_hs _ (h_setOrig H1 (hs s) e l) s)) (modify _ (fun s => set_hs _ (h_setOrig H2 (hs s) e l) s)).
Proof.
  intros; apply dsim_asked.
  - intros a. split; [reflexivity|]. intros Hb. apply (st_orig _ _ _ _ HS), Hb.
  - intros a b Hs. right. split; [reflexivity|]. apply ssim_hs; auto. apply (sh_orig _ _ _ _ HS), (ss_hs _ _ _ _ _ Hs).
Qed.
Hint Resolve dsim_setOrig : dsim.
Lemma dsim_entityDecl : dsim R B (parseEntityDecl E _ H1) (parseEntityDecl E _ H2). Proof. unfold parseEntityDecl. dsimauto. Qed.
Lemma dsim_defaultDecl : forall n, dsim R B (parseDefaultDecl E _ H1 n) (parseDefaultDecl E _ H2 n).
Proof. intros; unfold parseDefaultDecl, parseAttributeValueInternal. dsimauto. Qed.
Lemma dsim_addDefault : forall x y z, dsim R B (addAttributeDefault _ H1 x y z) (addAttributeDefault _ H2 x y z).
Proof.
  intros; unfold addAttributeDefault. dsimauto. apply dsim_asked.
  - intros a'. pose proof (st_attr _ _ _ _ HS (hs a') s0 s z) as Hk. destruct (h_createAttr H1 _ _ _ _) as [h1 []]; split; try reflexivity; exact Hk.
  - intros a' b' Hs. destruct (sh_attr _ _ _ _ HS _ _ s0 s z (ss_hs _ _ _ _ _ Hs)) as [Bd|[Hr Hq]].
    { left. destruct (h_createAttr H1 _ _ _ _) as [h1 []]; exact Bd. }
    right.
    destruct (h_createAttr H1 _ _ _ _) as [h1 o1], (h_createAttr H2 _ _ _ _) as [h2 o2]. simpl in *. subst o2.
    destruct o1; simpl; split; simpl; auto using ssim_hs. destruct Hs; constructor; simpl; auto. congruence.
Qed.
Hint Resolve dsim_entityDecl dsim_defaultDecl dsim_addDefault : dsim.
Lemma dsim_attlistLoop : forall n e, dsim R B (attlistLoop E _ H1 n e) (attlistLoop E _ H2 n e).
Proof. induction n; intros; [simpl; eauto with dsim|]. cbn [attlistLoop]. dsimauto. Qed.
Hint Resolve dsim_attlistLoop : dsim.
Lemma dsim_attlist : forall n, dsim R B (parseAttributeListDecl E _ H1 n) (parseAttributeListDecl E _ H2 n).
Proof. intros; unfold parseAttributeListDecl. dsimauto. Qed.
Hint Resolve dsim_attlist : dsim.
Lemma dsim_markup : forall n, dsim R B (parseMarkupDecl E _ H1 n) (parseMarkupDecl E _ H2 n).
Proof.
  intros n.
  apply (dsim_look _ _ R B _
   (fun l => if peek E l =? 60 then if peekn E 2 l =? 33 then
       bind _ (if peekn E 3 l =? 69 then
          if peekn E 4 l =? 76 then wrap _ (parseElementDecl E _ H1 n)
          else if peekn E 4 l =? 78 then wrap _ (parseEntityDecl E _ H1)
          else ret _ tt
        else if peekn E 3 l =? 65 then wrap _ (parseAttributeListDecl E _ H1 n)
        else if peekn E 3 l =? 45 then wrap _ (parseComment E _ H1)
        else ret _ tt) (fun _ => wrap _ (parsePEReference E _ H1))
     else if peekn E 2 l =? 63 then parsePI E _ H1
     else wrap _ (parsePEReference E _ H1)
   else wrap _ (parsePEReference E _ H1))
   (fun l => if peek E l =? 60 then if peekn E 2 l =? 33 then
       bind _ (if peekn E 3 l =? 69 then
          if peekn E 4 l =? 76 then wrap _ (parseElementDecl E _ H2 n)
          else if peekn E 4 l =? 78 then wrap _ (parseEntityDecl E _ H2)
          else ret _ tt
        else if peekn E 3 l =? 65 then wrap _ (parseAttributeListDecl E _ H2 n)
        else if peekn E 3 l =? 45 then wrap _ (parseComment E _ H2)
        else ret _ tt) (fun _ => wrap _ (parsePEReference E _ H2))
     else if peekn E 2 l =? 63 then parsePI E _ H2
     else wrap _ (parsePEReference E _ H2)
   else wrap _ (parsePEReference E _ H2))).
  intros l. dsimauto.
Qed.
Hint Resolve dsim_markup : dsim.
Lemma dsim_subsetLoop : forall n, dsim R B (subsetLoop E _ H1 n) (subsetLoop E _ H2 n).
Proof. induction n; intros; [simpl; eauto with dsim|]. cbn [subsetLoop]. dsimauto. Qed.
Hint Resolve dsim_subsetLoop : dsim.
Lemma dsim_internalSubset : forall n, dsim R B (parseInternalSubset E _ H1 n) (parseInternalSubset E _ H2 n).
Proof. intros; unfold parseInternalSubset. dsimauto. Qed.
Hint Resolve dsim_internalSubset : dsim.
Lemma dsim_DTD : forall n, dsim R B (parseDTD E _ H1 n) (parseDTD E _ H2 n).
Proof. intros; unfold parseDTD. dsimauto. Qed.
Hint Resolve dsim_DTD : dsim.
Lemma dsim_switch : forall d, dsim R B (switchEncoding E _ d) (switchEncoding E _ d).
Proof.
  intros d. apply dsim_still.
  - intros a. unfold switchEncoding. destruct (Load _ _); split; reflexivity.
  - intros a b Hs. unfold switchEncoding. rewrite (ss_encoding _ _ _ _ _ Hs), (ss_inp _ _ _ _ _ Hs).
    destruct (Load _ _); split; simpl; auto using ssim_inp.
Qed.
Hint Resolve dsim_switch : dsim.
Lemma dsim_document : forall n, dsim R B (parseDocument E _ H1 n) (parseDocument E _ H2 n).
Proof.
  intros; unfold parseDocument. dsimauto. apply dsim_still.
  - intros a. destruct (detectEncoding _) as [[? ?]|]; split; reflexivity.
  - intros a b Hs. rewrite (ss_inp _ _ _ _ _ Hs). destruct (detectEncoding _) as [[? ?]|]; split; simpl; auto using ssim_inp.
Qed.

Theorem dsim_Parse : forall n a b bytes, R a b ->
  bad B (snd (Parse E S1 H1 n a bytes)) \/
  (fst (Parse E S1 H1 n a bytes) = fst (Parse E S2 H2 n b bytes) /\ R (hs (snd (Parse E S1 H1 n a bytes))) (hs (snd (Parse E S2 H2 n b bytes)))).
Proof.
  intros n a b bytes Hr. unfold Parse.
  assert (Hs : ssim R (init S1 a bytes) (init S2 b bytes)) by (constructor; simpl; auto).
  destruct (dsim_document n) as [_ K]. destruct (K _ _ Hs) as [Bd|[A Q]]; [left; exact Bd|right].
  split; [exact A|apply (ss_hs _ _ _ _ _ Q)].
Qed.
End Funs.

(* The declarations in the trees that parsing builds have a syntax, but for
   attributes of type ENTITIES. *)
From Coq Require Import FMapPositive.
From Verif Require Import Base Utf8 Escape Scan Parser DeclRight Heap TreeBuilder TreeShape TreeOps History TreeCalls Retire Edit DumpTotal.
From Coq Require Import ZifyBool.
Local Open Scope Z_scope.

(* declarations with a syntax, and attributes of type ENTITIES *)
Definition proper (d : data) : Prop :=
  match d with
  | DAttrDecl a b c atype def e f => has_syntax d \/ (atype = AttrEntities /\ In def [1; 2; 3; 4])
  | _ => has_syntax d
  end.
(* all nodes but those of X *)
Definition well (X : list ptr) (h : heap) : Prop := forall x c, hget h x = Some c -> ~ In x X -> proper (dat c).
Definition keep {A} (X : list ptr) (m : HM A) : Prop := forall h, well X h -> well X (snd (m h)).
(* the same unless there is a panic *)
Definition keepp {A} (X : list ptr) (m : HM A) : Prop := forall h, well X h -> fst (m h) <> Pan -> well X (snd (m h)).

Section K.
Variable X : list ptr.
Lemma k_stay {A} (o : outcome herr A) : keep X (fun h => (o, h)). Proof. intros h W. exact W. Qed.
Lemma k_ret A (a : A) : keep X (hret a). Proof. apply k_stay. Qed.
Lemma k_fail A e : keep X (@hfail A e). Proof. apply k_stay. Qed.
Lemma k_pan A : keep X (@hpan A). Proof. apply k_stay. Qed.
Lemma k_oof A : keep X (@hoof A). Proof. apply k_stay. Qed.
Lemma k_bind A B (m : HM A) (f : A -> HM B) : keep X m -> (forall a, keep X (f a)) -> keep X (hbind m f).
Proof. intros Hm Hf h W. specialize (Hm h W). unfold hbind. destruct (m h) as [[a|e| |] h1]; cbn [snd] in *; auto. apply Hf, Hm. Qed.
Lemma k_ignore m : keep X m -> keep X (hignore m).
Proof. intros Hm h W. specialize (Hm h W). unfold hignore. destruct (m h) as [[a|e| |] h1]; cbn [snd] in *; auto. Qed.
Lemma k_size A (f : nat -> HM A) : (forall n, keep X (f n)) -> keep X (fun h => f (size h) h).
Proof. intros Hf h W. apply Hf, W. Qed.
Lemma k_getc p : keep X (getc p). Proof. intros h W. unfold getc. destruct (hget h p); exact W. Qed.
Lemma k_deref o : keep X (deref o). Proof. destruct o; [apply k_ret|apply k_pan]. Qed.
Lemma k_alloc o d : proper d -> keep X (alloc o d).
Proof.
  intros P h W x c. unfold alloc, hget. cbn [snd cells]. rewrite PositiveMapAdditionalFacts.gsspec. destruct (PositiveMap.E.eq_dec x (nxt h)) as [_|N]; [|apply W].
  intros [= <-] _. exact P.
Qed.
Lemma k_upd f p : (forall c, dat (f c) = dat c) -> keep X (upd f p).
Proof.
  intros Hf h W. unfold upd, hbind, getc, setc. destruct (hget h p) as [c|] eqn:E; cbn [snd]; [|exact W]. intros x k. rewrite hget_hset.
  destruct (Pos.eqb_spec x p) as [->|N]; [|apply W]. intros [= <-] Hx. rewrite Hf. exact (W p c E Hx).
Qed.
Lemma k_setData p d : proper d -> keep X (setData p d).
Proof.
  intros P h W. unfold setData, upd, hbind, getc, setc. destruct (hget h p) as [c|] eqn:E; cbn [snd]; [|exact W]. intros x k. rewrite hget_hset.
  destruct (Pos.eqb_spec x p) as [->|N]; [|apply W]. intros [= <-] Hx. exact P.
Qed.
End K.
(* what is written at p comes into use *)
Lemma k_settle p d h : proper d -> well [p] h -> fst (setData p d h) <> Pan -> well [] (snd (setData p d h)).
Proof.
  intros P W. unfold setData, upd, hbind, getc, setc. destruct (hget h p) as [c|] eqn:E; cbn [fst snd]; [|congruence]. intros _ x k. rewrite hget_hset.
  destruct (Pos.eqb_spec x p) as [->|N]; [intros [= <-] _; exact P|]. intros Hk _. apply (W x k Hk). intros [<-|[]]. congruence.
Qed.

Create HintDb keep.
Ltac kt := repeat match goal with
  | |- keep _ (hbind _ _) => apply k_bind; [|intros]
  | |- keep _ (hret _) => apply k_ret
  | |- keep _ (hfail _) => apply k_fail
  | |- keep _ hpan => apply k_pan
  | |- keep _ hoof => apply k_oof
  | |- keep _ (hignore _) => apply k_ignore
  | |- keep _ (getc _) => apply k_getc
  | |- keep _ (deref _) => apply k_deref
  | |- keep _ (alloc _ _) => apply k_alloc; try exact I
  | |- keep _ (setData _ _) => apply k_setData; try exact I
  | |- keep _ (setOwner _ _) => apply k_upd; reflexivity
  | |- keep _ (setFirst _ _) => apply k_upd; reflexivity
  | |- keep _ (setLast _ _) => apply k_upd; reflexivity
  | |- keep _ (setPar _ _) => apply k_upd; reflexivity
  | |- keep _ (setNext _ _) => apply k_upd; reflexivity
  | |- keep _ (setPrev _ _) => apply k_upd; reflexivity
  | |- keep _ (if ?b then _ else _) => destruct b
  | |- keep _ (match ?x with _ => _ end) => destruct x
  | |- keep _ (let '(_, _) := ?x in _) => destruct x
  | _ => solve [auto with keep]
  end.
Section Calls.
Variable X : list ptr.
Lemma k_lastSibling n : forall p, keep X (lastSibling n p).
Proof. induction n; intros p; cbn [lastSibling]; kt. Qed.
Lemma k_addSibling p q : keep X (addSibling p q).
Proof. unfold addSibling. apply k_bind; [apply (k_size X _ (fun n => lastSibling n p)); intros; apply k_lastSibling|]. intros. kt. Qed.
#[local] Hint Resolve k_addSibling : keep.
Lemma k_AddSibling p q : keep X (AddSibling p q). Proof. unfold AddSibling. kt. Qed.
#[local] Hint Resolve k_AddSibling : keep.
Lemma k_addChild p q : keep X (addChild p q). Proof. unfold addChild. kt. Qed.
#[local] Hint Resolve k_addChild : keep.
Lemma k_AddChild p q : keep X (AddChild p q). Proof. unfold AddChild. kt. Qed.
#[local] Hint Resolve k_AddChild : keep.
Lemma k_AddContent p b : keep X (AddContent p b). Proof. unfold AddContent. kt. Qed.
Lemma k_replaceNode p q : keep X (replaceNode p q). Proof. unfold replaceNode. kt. Qed.
#[local] Hint Resolve k_replaceNode k_AddContent : keep.
Lemma k_Replace p q : keep X (Replace p q). Proof. unfold Replace. kt. Qed.
#[local] Hint Resolve k_Replace : keep.
Lemma k_firstElement n : forall o, keep X (firstElement n o).
Proof. induction n; intros o; destruct o; cbn [firstElement]; kt. Qed.
Lemma k_firstElement_size o : keep X (fun h => firstElement (size h) o h).
Proof. apply (k_size X _ (fun n => firstElement n o)). intros. apply k_firstElement. Qed.
#[local] Hint Resolve k_firstElement_size : keep.
Lemma k_SetDocumentElement d r : keep X (SetDocumentElement d r). Proof. unfold SetDocumentElement. kt. Qed.
Lemma k_SetNamespace e p u a : keep X (SetNamespace e p u a). Proof. unfold SetNamespace. kt. Qed.
Lemma k_owners n : (forall d p, keep X (setTreeDoc n d p)) /\ (forall d o, keep X (setListDoc n d o)) /\ (forall d o, keep X (setAttrsDoc n d o)).
Proof. induction n as [|n (I1 & I2 & I3)]; (split; [|split]); intros d o; cbn [setTreeDoc setListDoc setAttrsDoc]; kt. Qed.
Lemma k_SetTreeDoc d p : keep X (fun h => setTreeDoc (2 * size h) d p h).
Proof. apply (k_size X _ (fun n => setTreeDoc (2 * n) d p)). intro n. apply k_owners. Qed.
Lemma k_getDoc p : keep X (getDoc p). Proof. unfold getDoc. kt. Qed.
Lemma k_getDtd p : keep X (getDtd p). Proof. unfold getDtd. kt. Qed.
#[local] Hint Resolve k_getDoc k_getDtd : keep.
Lemma k_setTables p t : keep X (setTables p t). Proof. unfold setTables. kt. Qed.
#[local] Hint Resolve k_setTables : keep.
Lemma k_GetEntity d n : keep X (GetEntity d n). Proof. unfold GetEntity, LookupEntity. kt. Qed.
#[local] Hint Resolve k_GetEntity : keep.
Lemma k_CreateReference d n : keep X (CreateReference d n). Proof. unfold CreateReference, CreateCharRef. kt. Qed.
#[local] Hint Resolve k_CreateReference : keep.
Lemma k_setParents n : forall p b o, keep X (setParents n p b o).
Proof. induction n; intros p b o; destruct o; cbn [setParents]; kt. Qed.
Lemma k_setParents_size p b o : keep X (fun h => setParents (size h) p b o h).
Proof. apply (k_size X _ (fun n => setParents n p b o)). intros. apply k_setParents. Qed.
#[local] Hint Resolve k_setParents_size : keep.
Lemma k_linkNode rl p : keep X (linkNode rl p). Proof. unfold linkNode. kt. Qed.
#[local] Hint Resolve k_linkNode : keep.
Lemma k_flushText d b rl : keep X (flushText d b rl). Proof. unfold flushText, CreateText. kt. Qed.
#[local] Hint Resolve k_flushText : keep.
Lemma k_Content n p : keep X (Content n p). Proof. apply k_stay with (o := Oof) || (intros h W; exact W). Qed.
#[local] Hint Resolve k_Content : keep.
Lemma k_nodeList n : forall d rs b rl, keep X (nodeList n d rs b rl).
Proof. induction n; intros d rs b rl; cbn [nodeList]; kt. Qed.
#[local] Hint Resolve k_nodeList : keep.
Lemma k_CreateAttribute n d nm v : keep X (CreateAttribute n d nm v). Proof. unfold CreateAttribute, stringToNodeList. kt. Qed.
#[local] Hint Resolve k_CreateAttribute : keep.
Lemma k_lastAttr n : forall nm p, keep X (lastAttr n nm p).
Proof. induction n; intros nm p; cbn [lastAttr]; kt. Qed.
Lemma k_lastAttr_size nm p : keep X (fun h => lastAttr (size h) nm p h).
Proof. apply (k_size X _ (fun n => lastAttr n nm p)). intros. apply k_lastAttr. Qed.
#[local] Hint Resolve k_lastAttr_size : keep.
Lemma k_SetAttribute n e nm v : keep X (SetAttribute n e nm v). Proof. unfold SetAttribute. kt. Qed.
#[local] Hint Resolve k_SetAttribute k_SetNamespace k_SetDocumentElement k_SetTreeDoc : keep.
(* ---- the tree builder ---- *)
Lemma k_AddEntity d n t p s c : keep X (AddEntity d n t p s c).
Proof.
  unfold AddEntity. apply k_bind; [apply k_getDtd|]. intros [[[n0 e0] s0] t0]. destruct (t =? 6); [apply k_fail|]. destruct ((1 <=? t) && (t <=? 5)) eqn:R; [|apply k_fail].
  cbn [negb]. kt. cbn [proper has_syntax In]. lia.
Qed.
Lemma k_LookupAttribute d n p e : keep X (LookupAttribute d n p e). Proof. unfold LookupAttribute. kt. Qed.
#[local] Hint Resolve k_LookupAttribute : keep.
Lemma k_RegisterAttribute d a : keep X (RegisterAttribute d a). Proof. unfold RegisterAttribute. kt. Qed.
#[local] Hint Resolve k_RegisterAttribute : keep.
Lemma k_addAttributeDecl d el n p t def v en : In def [DefNone; DefRequired; DefImplied; DefFixed] -> keep X (addAttributeDecl d el n p t def v en).
Proof.
  intros D. unfold addAttributeDecl. destruct d as [dp|]; [|apply k_fail]. destruct ((1 <=? t) && (t <=? 10)) eqn:R; [|apply k_fail]. cbn [negb]. kt.
  cbn [proper has_syntax In] in *. unfold DefNone, DefRequired, DefImplied, DefFixed, AttrCDATA, AttrID, AttrIDRef, AttrIDRefs, AttrEntity, AttrEntities, AttrNmtoken, AttrNmtokens, AttrEnumeration, AttrNotation in *.
  lia.
Qed.
Lemma k_attach d el n : keep X (attach d el n). Proof. unfold attach. kt. Qed.
#[local] Hint Resolve k_attach : keep.
Lemma k_setNamespaces e : forall l, keep X (setNamespaces e l).
Proof. induction l as [|[[p u]|] l IH]; cbn [setNamespaces]; kt. Qed.
Lemma k_setAttributes n e : forall l, keep X (setAttributes n e l).
Proof. induction l as [|[] l IH]; cbn [setAttributes]; kt. Qed.
#[local] Hint Resolve k_setNamespaces k_setAttributes : keep.
Lemma k_startElement n d el l p u ns at_ : keep X (startElement n d el l p u ns at_). Proof. unfold startElement, CreateElement. kt. Qed.
Lemma k_subset d i e : keep X (subset d i e). Proof. unfold subset. kt. Qed.
#[local] Hint Resolve k_subset k_AddEntity k_addAttributeDecl k_startElement : keep.
Lemma k_action n s v e : right_event e -> (forall nm t c, e <> EElementDecl nm t c) -> keep X (tb_action n s v e).
Proof.
  intros R N. destruct e; cbn [tb_action]; unfold NewDocument, processingInstruction, endElement, characters, comment, internalSubset, CreateInternalSubset, reference, entityDecl, attributeDecl,
    CreatePI, CreateComment, CreateCharRef.
  all: try (destruct (N _ _ _ eq_refl)).
  all: cbn [right_event] in R.
  all: try (match type of R with _ /\ _ => destruct R as [_ R] end).
  all: kt.
Qed.
End Calls.

Lemma known_copy : forall e, known e -> known (copyElementContent e).
Proof.
  fix IH 1. intros [ct oc nm pf c1 c2] (K & K1 & K2). cbn [copyElementContent known]. split; [exact K|].
  split; [destruct c1 as [a|]; [apply IH, K1|exact I]|destruct c2 as [b|]; [apply IH, K2|exact I]].
Qed.

(* the end of AddElementDecl, with the declaration p not yet filled in *)
Lemma settle_decl d p o typ content h : In typ [EmptyElementType; AnyElementType; MixedElementType; ElementElementType] -> match content with Some e => known e | None => True end ->
  let m := k <- getc p ;;
    match dat k with
    | DElemDecl nm pf _ _ => setData p (DElemDecl nm pf typ (match content with Some e => Some (copyElementContent e) | None => None end))
    | _ => hpan
    end ;; setOwner p o ;; AddChild d p ;; hret p in
  well [p] h -> fst (m h) <> Pan -> well [] (snd (m h)).
Proof.
  intros T K m W. unfold m. unfold hbind at 1 5, getc at 1 2. destruct (hget h p) as [c|] eqn:Ec; [|cbn; congruence].
  destruct (dat c) as [ | | | | | | | | |nm pf t0 c0| ]; try (unfold hbind, hpan; cbn; congruence).
  assert (P : proper (DElemDecl nm pf typ (match content with Some e => Some (copyElementContent e) | None => None end))).
  { cbn [proper has_syntax]. split; [exact T|]. destruct content; [apply known_copy, K|exact I]. }
  pose proof (k_settle p _ h P W) as Q. unfold hbind at 1 4. destruct (setData p _ h) as [[u|e| |] h1]; cbn [fst snd] in *.
  - specialize (Q ltac:(discriminate)). intros _.
    assert (G : keep [] (setOwner p o ;; AddChild d p ;; hret p)).
    { apply k_bind; [apply k_upd; reflexivity|]. intros _. apply k_bind; [apply k_AddChild|]. intros _. apply k_ret. }
    exact (G h1 Q).
  - intros _. apply Q. discriminate.
  - congruence.
  - intros _. apply Q. discriminate.
Qed.
Lemma well_weak p h : well [] h -> well [p] h.
Proof. intros W x c Hx _. exact (W x c Hx (fun f => f)). Qed.
Lemma kp_bind A B (m : HM A) (f : A -> HM B) h : well [] h -> keep [] m ->
  (forall a h1, well [] h1 -> m h = (Ret a, h1) -> fst (f a h1) <> Pan -> well [] (snd (f a h1))) -> fst (hbind m f h) <> Pan -> well [] (snd (hbind m f h)).
Proof. intros W Hm Hf. specialize (Hm h W). unfold hbind. destruct (m h) as [[a|e| |] h1] eqn:Em; cbn [fst snd] in *; auto. Qed.
Lemma kp_AddElementDecl d name typ content h : match content with Some e => known e | None => True end ->
  well [] h -> fst (AddElementDecl d name typ content h) <> Pan -> well [] (snd (AddElementDecl d name typ content h)).
Proof.
  intros K W. unfold AddElementDecl. apply kp_bind; [exact W|apply k_getDtd|]. intros x0 h0 W0 _.
  apply kp_bind; [exact W0| |].
  { destruct (_ || _); [destruct content; [apply k_fail|apply k_ret]|]. destruct (_ || _); [destruct content; [apply k_ret|apply k_fail]|apply k_fail]. }
  intros u h1 W1 T0.
  assert (T : In typ [EmptyElementType; AnyElementType; MixedElementType; ElementElementType]).
  { cbn [In]. unfold hfail, hret in T0. destruct (Z.eqb_spec typ EmptyElementType) as [|]; [auto|]. destruct (Z.eqb_spec typ AnyElementType) as [|]; [auto|].
    cbn [orb] in T0. destruct (Z.eqb_spec typ MixedElementType) as [|]; [auto|]. destruct (Z.eqb_spec typ ElementElementType) as [|]; [auto|]. discriminate. }
  clear T0. destruct (prefix_local name) as [prefix local]. cbv zeta.
  apply kp_bind; [exact W1|apply k_getc|]. intros c h2 W2 _. apply kp_bind; [exact W2| |].
  { destruct (owner c); [|apply k_ret]. apply k_bind; [apply k_getDoc|]. intros [[[[? ?] ?] [i|]] ?]; [|apply k_ret]. apply k_bind; [apply k_getDtd|]. intros y.
    destruct (tget _ _); [|apply k_ret]. apply k_bind; [unfold declType; apply k_bind; [apply k_getc|]; intros k; destruct (dat k); try apply k_pan; apply k_ret|].
    intros t. destruct (t =? _); [apply k_setTables|apply k_ret]. }
  intros u2 h3 W3 _. apply kp_bind; [exact W3|apply k_getDtd|]. intros z h4 W4 _.
  match goal with |- fst (hbind ?a _ h4) <> _ -> _ => set (mk := a) end.
  assert (Mk : forall p h5, mk h4 = (Ret p, h5) -> well [p] h5).
  { intros p h5. unfold mk. destruct (tget _ _) as [e|].
    - unfold declType, hbind, getc, hret, hfail, hpan. destruct (hget h4 e) as [k|]; [|discriminate]. destruct (dat k); try discriminate. destruct (negb _); [discriminate|].
      intros [= <- <-]. apply well_weak, W4.
    - intros R. unfold hbind at 1 in R. unfold alloc in R. cbv beta iota in R.
      set (ha := {| cells := _; nxt := _ |}) in R.
      assert (Wa : well [nxt h4] ha).
      { intros x k. unfold ha, hget. cbn [cells]. rewrite PositiveMapAdditionalFacts.gsspec. destruct (PositiveMap.E.eq_dec x (nxt h4)) as [->|N]; [intros _ C; exfalso; apply C; left; reflexivity|].
        intros Hk _. exact (W4 x k Hk (fun f => f)). }
      pose proof (k_setTables [nxt h4] d (with_elems (tput (t_elems (snd z)) (elem_key local prefix) (nxt h4)) (snd z)) ha Wa) as Q.
      unfold hbind, hret in R. destruct (setTables _ _ ha) as [[uu|e| |] hb]; try discriminate. injection R as <- <-. exact Q. }
  assert (Mf : forall o h5, mk h4 = (o, h5) -> (forall p, o <> Ret p) -> o <> Pan -> well [] h5).
  { intros o h5. unfold mk. destruct (tget _ _) as [e|].
    - unfold declType, hbind, getc, hret, hfail, hpan. destruct (hget h4 e) as [k|]; [|intros [= <- <-]; congruence].
      destruct (dat k); try (intros [= <- <-]; congruence). destruct (negb _); intros [= <- <-]; [intros; exact W4|intros N _; destruct (N _ eq_refl)].
    - unfold hbind at 1. unfold alloc. cbv beta iota. set (ha := {| cells := _; nxt := _ |}). unfold setTables, getDtd, setData, upd, hbind, getc, setc, hret, hpan.
      destruct (hget ha d) as [k|] eqn:Ek; [|intros [= <- <-]; congruence]. destruct (dat k); try (intros [= <- <-]; congruence). rewrite Ek. intros [= <- <-] N _. destruct (N _ eq_refl). }
  unfold hbind at 1 6. destruct (mk h4) as [[p|e| |] h5] eqn:Em.
  - apply settle_decl; [exact T|exact K|]. apply (Mk p h5 eq_refl).
  - intros _. cbn [snd]. apply (Mf _ _ eq_refl); discriminate.
  - cbn. congruence.
  - intros _. cbn [snd]. apply (Mf _ _ eq_refl); discriminate.
Qed.
Lemma k_event n s v e : right_event e -> well [] (tb_heap s) -> snd (tb_event n s v e) <> HPanic -> well [] (tb_heap (fst (tb_event n s v e))).
Proof.
  intros R W. unfold tb_event. assert (Q : fst (tb_action n s v e (tb_heap s)) <> Pan -> well [] (snd (tb_action n s v e (tb_heap s)))).
  { assert (G : (exists nm t c, e = EElementDecl nm t c) \/ forall nm t c, e <> EElementDecl nm t c) by (destruct e; eauto; right; discriminate).
    destruct G as [(nm & t & c & ->)|N]; [|intros _; apply k_action; [exact R|exact N|exact W]].
    cbn [tb_action]. unfold elementDecl. destruct R as (_ & _ & R).
    match goal with |- context [hbind ?a (fun _ => hret (tb_doc s, tb_elem s))] => set (m := a) end. assert (Km : forall h, well [] h -> fst (m h) <> Pan -> well [] (snd (m h))).
    { intros h Wh. unfold m. apply kp_bind; [exact Wh|apply k_subset|]. intros y h1 W1 _. apply kp_bind; [exact W1|unfold deref; destruct y; [apply k_ret|apply k_pan]|].
      intros p h2 W2 _. pose proof (kp_AddElementDecl p nm t c h2 R W2) as K. unfold hbind. destruct (AddElementDecl p nm t c h2) as [[a|e| |] h3]; cbn [fst snd hret] in *; intros NP; apply K; congruence. }
    specialize (Km _ W). clearbody m. unfold hbind. destruct (m (tb_heap s)) as [[a|e| |] h3]; cbn [fst snd hret] in *; intros NP; apply Km; congruence. }
  destruct (tb_action n s v e (tb_heap s)) as [[[d x]|e0| |] h]; cbn [fst snd tb_heap] in *; intros NP; try (destruct (NP eq_refl)); apply Q; discriminate.
Qed.
Theorem parsed_well E f n bytes s : Parse E tb (treeH f) n tb_init bytes = (Ret tt, s) -> well [] (tb_heap (hs s)).
Proof.
  apply (kept_parse E tb (treeH f) (fun s => well [] (tb_heap s))).
  - intros. apply k_event; assumption.
  - intros h v nm W. cbn [treeH h_getEntity]. unfold tb_getEntity. destruct (GetEntity _ _ _) as [[[p|]|?| |] ?]; try exact W. destruct (read_entity _ _); exact W.
  - intros h v nm W. cbn [treeH h_getPEntity]. unfold tb_getPEntity. destruct (tb_doc h); [|exact W]. destruct (GetParameterEntity _ _ _) as [[[?|]|?| |] ?]; try exact W. destruct (read_entity _ _); exact W.
  - intros h e o W. cbn [treeH h_setOrig]. unfold tb_setOrig. destruct e as [x|]; [|exact W]. destruct (e_id x) as [|p|]; try exact W. destruct (hget (tb_heap h) p) as [c|] eqn:Ec; [|exact W].
    destruct (dat c) eqn:Dc; try exact W. pose proof (W p c Ec (fun f => f)) as Pc. rewrite Dc in Pc. cbn [with_heap tb_heap]. intros y k. unfold hset, hget. cbn [cells]. rewrite PositiveMapAdditionalFacts.gsspec.
    destruct (PositiveMap.E.eq_dec y p) as [->|N]; [intros [= <-] _; exact Pc|intros Hk Hn; exact (W y k Hk Hn)].
  - intros h l p v W. cbn [treeH h_createAttr]. unfold tb_createAttr. pose proof (k_CreateAttribute [] f (tb_doc h) l v (tb_heap h) W) as K.
    destruct (CreateAttribute _ _ _ _ _) as [[?|?| |] h1]; exact K.
  - intros h W. cbn [treeH h_chunkEnter]. unfold tb_chunkEnter.
    assert (G : forall d h1, well [] h1 -> well [] (snd ((setFirst d None ;; setLast d None ;; r <- CreateElement (Some d) (s_ "pseudoroot") ;; hignore (AddChild d r)) h1))).
    { intros d h1. match goal with |- _ -> well [] (snd (?m _)) => assert (Q : keep [] m); [unfold CreateElement; kt; apply k_AddChild|apply (Q h1)] end. }
    destruct (tb_doc h) as [d|]; [apply G, W|].
    assert (K : keep [] (NewDocument (s_ "1.0") [] StandaloneExplicitNo)) by (unfold NewDocument; kt). specialize (K _ W). destruct (NewDocument _ _ _ _) as [[?|?| |] h1]; apply G, K.
  - intros h h' W W'. cbn [treeH h_chunkLeave]. unfold tb_chunkLeave. destruct (tb_doc h') as [d|]; [|exact W'].
    match goal with |- context [let '(fc, lc) := ?x in _] => destruct x as [fc lc] end. cbn [tb_heap].
    assert (Q : keep [] (setFirst d fc ;; setLast d lc)) by kt. exact (Q _ W').
  - intros x c Hx. exfalso. unfold tb_init, empty_heap, hget in Hx. cbn in Hx. rewrite PositiveMap.gempty in Hx. discriminate.
Qed.

(* but for attributes of type ENTITIES *)
Definition no_entities (d : data) : Prop := match d with DAttrDecl _ _ _ atype _ _ _ => atype <> AttrEntities | _ => True end.
Lemma proper_syntax d : proper d -> no_entities d -> has_syntax d.
Proof. destruct d; cbn [proper no_entities]; try (intros; assumption). intros [P|[-> _]] N; [exact P|congruence]. Qed.
(* ---- edits ---- *)
Definition declaration (d : data) : Prop := match d with DElemDecl _ _ _ _ | DAttrDecl _ _ _ _ _ _ _ | DEntity _ _ _ _ _ _ => True | _ => False end.
(* histories of allowed calls that create no declaration by themselves *)
Inductive tended (start : heap -> Prop) : list ptr -> heap -> Prop :=
| tended0 h : start h -> tended start [] h
| tendedS X h c r h' X' : tended start X h -> (forall o d, c = TOp (ONew o d) -> ~ declaration d) ->
    fit (drop X h) c -> run c h = (r, h') ->
    (forall x, In x X' <-> In x X \/ gone (drop X h) c x) -> tended start X' h'.
Lemma tended_since start X h : tended start X h -> since start X h.
Proof. induction 1; [constructor; assumption|eapply sinceS; eassumption]. Qed.
Lemma k_run c : (forall o d, c = TOp (ONew o d) -> ~ declaration d) -> keep [] (run c).
Proof.
  intros N. destruct c as [[o d|p q|p q|p b|e nm v]|o q|d r|d p|e p u a]; cbn [run call].
  - apply k_bind; [|intros; apply k_ret]. apply k_alloc. specialize (N o d eq_refl). destruct d; try exact I; destruct (N I).
  - apply k_AddChild.
  - apply k_AddSibling.
  - apply k_AddContent.
  - apply k_SetAttribute.
  - apply k_Replace.
  - apply k_SetDocumentElement.
  - apply k_SetTreeDoc.
  - apply k_SetNamespace.
Qed.
Lemma tended_well (start : heap -> Prop) : (forall h, start h -> well [] h) -> forall X h, tended start X h -> well [] h.
Proof.
  intros S X h T. induction T as [h H|X h c r h' X' T IH N F R G]; [apply S, H|]. pose proof (k_run c N h IH) as K. rewrite R in K. exact K.
Qed.
Lemma tended_syntax E f : usual E -> forall X h, tended (fun h => h = empty_heap \/ parsed_heap E f h) X h ->
  forall x d, data_of (drop X h) x = Some d -> no_entities d -> has_syntax d.
Proof.
  intros U X h T x d D N. destruct (since_forest _ (edited_start E f U) _ _ (tended_since _ _ _ T)) as [L _].
  apply data_of_some in D as (c & Ec & <-). apply (less_get _ _ _ _ _ L) in Ec as [Ec _].
  assert (W : well [] h).
  { eapply tended_well; [|exact T]. intros h0 [->|(bytes & n & s & _ & _ & R & ->)]; [|eapply parsed_well, R].
    intros y k Hy. exfalso. unfold empty_heap, hget in Hy. cbn in Hy. rewrite PositiveMap.gempty in Hy. discriminate. }
  apply proper_syntax; [exact (W x c Ec (fun f => f))|exact N].
Qed.

(* What the tree builder knows of entities is what it was told: the text of an
   internal general entity in the tree is never changed, and only a declaration
   makes one. *)
From Coq Require Import FMapPositive.
From Verif Require Import Base Utf8 Escape Scan Parser Heap TreeBuilder.

Section K.
(* what the texts of internal general entities are like *)
Variable P : str -> Prop.
Definition fine (d : data) : Prop := match d with DEntity _ t _ _ c _ => t = InternalGeneralEntity -> P c | _ => True end.
Definition all_fine (h : heap) : Prop := forall p c, hget h p = Some c -> fine (dat c).
Definition keeps {A} (m : HM A) : Prop := forall h, all_fine h -> all_fine (snd (m h)).

Lemma fine_set h p c : all_fine h -> fine (dat c) -> all_fine (hset h p c).
Proof.
  intros Hh Hc q k Hq. unfold hget, hset in Hq. cbn [cells] in Hq. rewrite PositiveMapAdditionalFacts.gsspec in Hq.
  destruct (PositiveMap.E.eq_dec q p); [inversion Hq; subst; exact Hc|exact (Hh _ _ Hq)].
Qed.
Lemma k_ret A (a : A) : keeps (hret a). Proof. intros h Hh; exact Hh. Qed.
Lemma k_fail A e : keeps (@hfail A e). Proof. intros h Hh; exact Hh. Qed.
Lemma k_pan A : keeps (@hpan A). Proof. intros h Hh; exact Hh. Qed.
Lemma k_oof A : keeps (@hoof A). Proof. intros h Hh; exact Hh. Qed.
Lemma k_bind A B (m : HM A) (f : A -> HM B) : keeps m -> (forall a, keeps (f a)) -> keeps (hbind m f).
Proof. intros Hm Hf h Hh. unfold hbind. specialize (Hm h Hh). destruct (m h) as [[a| | |] h1]; try exact Hm. apply Hf; exact Hm. Qed.
Lemma k_getc p : keeps (getc p). Proof. intros h Hh. unfold getc. destruct (hget h p); exact Hh. Qed.
Lemma k_deref o : keeps (deref o). Proof. destruct o; [apply k_ret|apply k_pan]. Qed.
Lemma k_ignore m : keeps m -> keeps (hignore m).
Proof. intros Hm h Hh. unfold hignore. specialize (Hm h Hh). destruct (m h) as [[a| | |] h1]; exact Hm. Qed.
Lemma k_alloc o d : fine d -> keeps (alloc o d).
Proof.
  intros Hd h Hh q k Hq. unfold alloc, hget in Hq. cbn [snd cells] in Hq. rewrite PositiveMapAdditionalFacts.gsspec in Hq.
  destruct (PositiveMap.E.eq_dec q (nxt h)); [inversion Hq; subst; exact Hd|exact (Hh _ _ Hq)].
Qed.
Lemma k_upd f p : (forall c, fine (dat c) -> fine (dat (f c))) -> keeps (upd f p).
Proof.
  intros Hf h Hh. unfold upd, hbind, getc. destruct (hget h p) as [c|] eqn:Hc; [|exact Hh]. cbn [snd setc]. apply fine_set; auto. apply Hf. exact (Hh _ _ Hc).
Qed.
Lemma k_data p d : fine d -> keeps (setData p d). Proof. intros Hd. apply k_upd. intros c _. exact Hd. Qed.
Lemma k_look A (f : heap -> HM A) : (forall h, keeps (f h)) -> keeps (fun h => f h h).
Proof. intros Hf h Hh. exact (Hf h h Hh). Qed.
Lemma k_Content n p : keeps (Content n p). Proof. intros h Hh; exact Hh. Qed.
Ltac k1 := first
  [ simple apply k_ret | simple apply k_fail | simple apply k_pan | simple apply k_oof | simple apply k_getc | simple apply k_deref | simple apply k_Content
  | (simple apply k_alloc; exact I) | (simple apply k_data; exact I)
  | (unfold setFirst, setLast, setPar, setNext, setPrev, setOwner; simple apply k_upd; intros ? ?; assumption)
  | simple apply k_bind | simple apply k_ignore | match goal with |- forall _, _ => intro end
  | match goal with |- keeps (if ?b then _ else _) => destruct b end
  | match goal with |- keeps (match ?x with _ => _ end) => destruct x end | progress cbv zeta ].
Ltac k := repeat k1.
Lemma k_lastSibling n : forall p, keeps (lastSibling n p). Proof. induction n; intros p; cbn [lastSibling]; repeat first [apply IHn|k1]. Qed.
Lemma k_addSibling p c : keeps (addSibling p c).
Proof. unfold addSibling. repeat first [apply (k_look _ (fun h => lastSibling (size h) p)); intro; simple apply k_lastSibling|k1]. Qed.
Lemma k_AddSibling p c : keeps (AddSibling p c). Proof. unfold AddSibling. repeat first [simple apply k_addSibling|k1]. Qed.
Lemma k_addChild p c : keeps (addChild p c). Proof. unfold addChild. repeat first [simple apply k_AddSibling|k1]. Qed.
Lemma k_AddChild p c : keeps (AddChild p c). Proof. unfold AddChild. repeat first [simple apply k_addChild|k1]. Qed.
Lemma k_AddContent p b : keeps (AddContent p b). Proof. unfold AddContent. repeat first [simple apply k_AddChild|k1]. Qed.
Lemma k_getDtd p : keeps (getDtd p). Proof. unfold getDtd. k. Qed.
Lemma k_getDoc p : keeps (getDoc p). Proof. unfold getDoc. k. Qed.
Lemma k_setTables p t : keeps (setTables p t). Proof. unfold setTables. repeat first [simple apply k_getDtd|k1]. Qed.
Lemma k_GetEntity d n : keeps (GetEntity d n). Proof. unfold GetEntity, LookupEntity. repeat first [simple apply k_getDtd|simple apply k_getDoc|k1]. Qed.
Lemma k_GetPEntity d n : keeps (GetParameterEntity d n). Proof. unfold GetParameterEntity, LookupParameterEntity. repeat first [simple apply k_getDtd|simple apply k_getDoc|k1]. Qed.
Lemma k_AddEntity d n t x y c : (t = InternalGeneralEntity -> P c) -> keeps (AddEntity d n t x y c).
Proof. intros Hc. unfold AddEntity. repeat first [simple apply k_getDtd|simple apply k_setTables|simple apply k_AddChild|simple apply k_alloc; exact Hc|k1]. Qed.
Lemma k_declType p : keeps (declType p). Proof. unfold declType. k. Qed.
Lemma k_AddElementDecl d n t c : keeps (AddElementDecl d n t c).
Proof. unfold AddElementDecl. repeat first [simple apply k_getDtd|simple apply k_getDoc|simple apply k_setTables|simple apply k_AddChild|simple apply k_declType|k1]. Qed.
Lemma k_Register d a : keeps (RegisterAttribute d a). Proof. unfold RegisterAttribute. repeat first [simple apply k_getDtd|simple apply k_setTables|k1]. Qed.
Lemma k_addAttributeDecl d e n p t f v en : keeps (addAttributeDecl d e n p t f v en).
Proof. unfold addAttributeDecl, LookupAttribute. repeat first [simple apply k_getDtd|simple apply k_getDoc|simple apply k_Register|simple apply k_AddChild|k1]. Qed.
Lemma k_SetNamespace e p u a : keeps (SetNamespace e p u a). Proof. unfold SetNamespace. k. Qed.
Lemma k_CreateCharRef d n : keeps (CreateCharRef d n). Proof. unfold CreateCharRef. k. Qed.
Lemma k_CreateReference d n : keeps (CreateReference d n). Proof. unfold CreateReference. repeat first [simple apply k_CreateCharRef|simple apply k_GetEntity|k1]. Qed.
Lemma k_setParents n : forall p c o, keeps (setParents n p c o).
Proof. induction n; intros p c [q|]; cbn [setParents]; repeat first [apply IHn|k1]. Qed.
Lemma k_linkNode rl n : keeps (linkNode rl n). Proof. unfold linkNode. repeat first [simple apply k_AddSibling|k1]. Qed.
Lemma k_flushText d b rl : keeps (flushText d b rl). Proof. unfold flushText, CreateText. repeat first [simple apply k_linkNode|k1]. Qed.
Lemma k_nodeList n : forall d rs b rl, keeps (nodeList n d rs b rl).
Proof.
  induction n; intros d rs b rl; cbn [nodeList]; [k|].
  repeat first [apply IHn|simple apply k_flushText|simple apply k_linkNode|simple apply k_GetEntity|simple apply k_CreateReference
    |match goal with |- keeps (fun h => setParents (size h) ?e ?c ?o h) => apply (k_look _ (fun h => setParents (size h) e c o)); intro; simple apply k_setParents end|k1].
Qed.
Lemma k_CreateAttribute n d nm v : keeps (CreateAttribute n d nm v).
Proof.
  unfold CreateAttribute, stringToNodeList. repeat first [simple apply k_nodeList
    |match goal with |- keeps (fun h => setParents (size h) ?e ?c ?o h) => apply (k_look _ (fun h => setParents (size h) e c o)); intro; simple apply k_setParents end|k1].
Qed.
Lemma k_lastAttr n : forall nm p, keeps (lastAttr n nm p). Proof. induction n; intros nm p; cbn [lastAttr]; repeat first [apply IHn|k1]. Qed.
Lemma k_SetAttribute n e nm v : keeps (SetAttribute n e nm v).
Proof.
  unfold SetAttribute. repeat first [simple apply k_CreateAttribute
    |match goal with |- keeps (fun h => lastAttr (size h) ?x ?p h) => apply (k_look _ (fun h => lastAttr (size h) x p)); intro; simple apply k_lastAttr end|k1].
Qed.
Lemma k_CreateInternalSubset d n e s : keeps (CreateInternalSubset d n e s). Proof. unfold CreateInternalSubset. repeat first [simple apply k_getDoc|simple apply k_AddChild|k1]. Qed.

(* the callbacks *)
Lemma k_setNamespaces e l : keeps (setNamespaces e l).
Proof. induction l as [|[[p u]|] l IH]; cbn [setNamespaces]; repeat first [apply IH|simple apply k_SetNamespace|k1]. Qed.
Lemma k_setAttributes n e l : keeps (setAttributes n e l).
Proof. induction l as [|[] l IH]; cbn [setAttributes]; repeat first [apply IH|simple apply k_SetAttribute|k1]. Qed.
Lemma k_attach d e n : keeps (attach d e n). Proof. unfold attach. repeat first [simple apply k_AddChild|k1]. Qed.
Lemma k_subset d i x : keeps (subset d i x). Proof. unfold subset. repeat first [simple apply k_getDoc|k1]. Qed.
Definition told (e : event) : Prop := match e with EEntityDecl _ t _ _ c => t = InternalGeneralEntity -> P c | _ => True end.
Lemma k_action n s v e : told e -> keeps (tb_action n s v e).
Proof.
  intros He. destruct e; cbn [tb_action]; unfold NewDocument, startElement, CreateElement, endElement, characters, processingInstruction, CreatePI,
    comment, CreateComment, internalSubset, reference, entityDecl, elementDecl, attributeDecl;
  repeat first [simple apply k_AddEntity; exact He|simple apply k_getDoc|simple apply k_AddChild|simple apply k_AddContent|simple apply k_attach|simple apply k_subset|simple apply k_SetNamespace|simple apply k_setNamespaces|simple apply k_setAttributes
    |simple apply k_CreateInternalSubset|simple apply k_CreateCharRef|simple apply k_CreateReference|simple apply k_AddElementDecl|simple apply k_addAttributeDecl|k1].
Qed.
Definition knows (s : tb) : Prop := all_fine (tb_heap s).
Lemma knows_event n s v e : knows s -> told e -> knows (fst (h_event (treeH n) s v e)).
Proof.
  intros Hs He. pose proof (k_action n s v e He (tb_heap s) Hs) as Hk. cbn [h_event treeH]. unfold tb_event, knows.
  destruct (tb_action n s v e (tb_heap s)) as [[[d x]| | |] h]; exact Hk.
Qed.
Lemma read_fine h p e : all_fine h -> read_entity h p = Some e -> e_type e = InternalGeneralEntity -> P (e_content e).
Proof.
  intros Hh Hr. unfold read_entity in Hr. destruct (hget h p) as [c|] eqn:Hc; [|discriminate]. specialize (Hh _ _ Hc). destruct (dat c); try discriminate.
  inversion Hr; subst. exact Hh.
Qed.
Lemma knows_getEntity n s v x : knows s -> knows (fst (h_getEntity (treeH n) s v x)) /\
  (forall e b, snd (h_getEntity (treeH n) s v x) = Answer (Some (Real e)) b -> e_type e = InternalGeneralEntity -> P (e_content e)).
Proof.
  intros Hs. cbn [h_getEntity treeH]. unfold tb_getEntity. pose proof (k_GetEntity (tb_doc s) x (tb_heap s) Hs) as Hk.
  destruct (GetEntity (tb_doc s) x (tb_heap s)) as [[[p|]| | |] h]; try (split; [exact Hs|discriminate]).
  destruct (read_entity h p) as [e|] eqn:Hr; (split; [exact Hs|]); [|discriminate]. intros e0 b [= <- _]. exact (read_fine _ _ _ Hk Hr).
Qed.
Lemma knows_getPEntity n s v x : knows s -> knows (fst (h_getPEntity (treeH n) s v x)).
Proof.
  intros Hs. cbn [h_getPEntity treeH]. unfold tb_getPEntity. destruct (tb_doc s); [|exact Hs].
  destruct (GetParameterEntity _ _ _) as [[[q|]| | |] h]; try exact Hs. destruct (read_entity h q); exact Hs.
Qed.
Lemma knows_docEntity n s x e : knows s -> h_docEntity (treeH n) s x = Some (Some e) -> e_type e = InternalGeneralEntity -> P (e_content e).
Proof.
  intros Hs. cbn [h_docEntity treeH]. unfold tb_docEntity. pose proof (k_GetEntity (tb_doc s) x (tb_heap s) Hs) as Hk.
  destruct (GetEntity (tb_doc s) x (tb_heap s)) as [[[p|]| | |] h]; try discriminate. intros [= Hr]. exact (read_fine _ _ _ Hk Hr).
Qed.
Lemma knows_setOrig n s e v : knows s -> knows (h_setOrig (treeH n) s e v).
Proof.
  intros Hs. cbn [h_setOrig treeH]. unfold tb_setOrig. destruct e as [x|]; [|exact Hs]. destruct (e_id x); try exact Hs.
  destruct (hget (tb_heap s) p) as [c|] eqn:Hc; [|exact Hs]. pose proof (Hs _ _ Hc) as Hf. destruct (dat c); try exact Hs.
  apply fine_set; [exact Hs|exact Hf].
Qed.
Lemma knows_createAttr n s l p v : knows s -> knows (fst (h_createAttr (treeH n) s l p v)).
Proof.
  intros Hs. cbn [h_createAttr treeH]. unfold tb_createAttr. pose proof (k_CreateAttribute n (tb_doc s) l v (tb_heap s) Hs) as Hk.
  destruct (CreateAttribute n (tb_doc s) l v (tb_heap s)) as [[]]; exact Hk.
Qed.
Lemma knows_enter n s : knows s -> knows (h_chunkEnter (treeH n) s).
Proof.
  intros Hs. cbn [h_chunkEnter treeH]. unfold tb_chunkEnter, knows.
  assert (Hk : forall d h, all_fine h -> all_fine (snd ((setFirst d None ;; setLast d None ;; r <- CreateElement (Some d) (s_ "pseudoroot") ;; hignore (AddChild d r)) h))).
  { intros d. unfold CreateElement. repeat first [simple apply k_AddChild|k1]. }
  destruct (tb_doc s) as [d|]; [apply Hk; exact Hs|]. cbn [NewDocument alloc tb_heap]. apply Hk.
  apply (k_alloc None (DDoc (s_ "1.0") [] StandaloneExplicitNo None None) I). exact Hs.
Qed.
Lemma knows_leave n s s1 : knows s -> knows s1 -> knows (h_chunkLeave (treeH n) s s1).
Proof.
  intros Hs H1. cbn [h_chunkLeave treeH]. unfold tb_chunkLeave, knows. destruct (tb_doc s1) as [d|]; [|exact H1].
  match goal with |- context [let '(_, _) := ?x in _] => destruct x as [fc lc] end. cbn [tb_heap].
  assert (Hk : keeps (setFirst d fc ;; setLast d lc)) by k. apply Hk; exact H1.
Qed.
Lemma knows_init : knows tb_init.
Proof. intros p c Hp. unfold hget in Hp. cbn [tb_init tb_heap empty_heap cells] in Hp. rewrite PositiveMap.gempty in Hp. discriminate. Qed.
End K.

(* The tree builder with the overflow of the stack taken for a crash in
   CreateAttribute too, as in tb_event: a default value that refers to an entity
   that refers to itself, see C44. *)
Definition crashing (n : nat) : handler tb := {|
  h_event := tb_event n;
  h_getEntity := tb_getEntity;
  h_getPEntity := tb_getPEntity;
  h_setOrig := tb_setOrig;
  h_mixed := tb_mixed;
  h_docEntity := tb_docEntity;
  h_createAttr := fun s l p v => let '(s', r) := tb_createAttr n s l p v in (s', match r with Oof => Pan | _ => r end);
  h_chunkEnter := tb_chunkEnter;
  h_chunkLeave := tb_chunkLeave |}.

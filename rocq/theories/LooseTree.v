(* The tree builder knows no entity as long as no declaration was reported:
   the document it builds has no subset. *)
From Coq Require Import FMapPositive.
From Verif Require Import Base Utf8 Escape Scan Parser Heap TreeShape TreeOps TreeBuilder Grammar Loose LooseLex LooseProofs.

Definition bare_data (d : data) : Prop := match d with DDoc _ _ _ i x => i = None /\ x = None | _ => True end.
Definition bare (h : heap) : Prop := forall p c, hget h p = Some c -> bare_data (dat c).
Definition kb {A} (m : HM A) : Prop := forall h, bare h -> bare (snd (m h)).

Lemma kb_ret A (a : A) : kb (hret a). Proof. intros h Hh. exact Hh. Qed.
Lemma kb_fail A e : kb (@hfail A e). Proof. intros h Hh. exact Hh. Qed.
Lemma kb_pan A : kb (@hpan A). Proof. intros h Hh. exact Hh. Qed.
Lemma kb_oof A : kb (@hoof A). Proof. intros h Hh. exact Hh. Qed.
Lemma kb_bind A B (m : HM A) (f : A -> HM B) : kb m -> (forall a, kb (f a)) -> kb (hbind m f).
Proof. intros Hm Hf h Hh. unfold hbind. specialize (Hm h Hh). destruct (m h) as [[a|e| |] h1]; auto. apply Hf. auto. Qed.
Lemma kb_ignore m : kb m -> kb (hignore m).
Proof. intros Hm h Hh. unfold hignore. specialize (Hm h Hh). destruct (m h) as [[a|e| |] h1]; auto. Qed.
Lemma kb_size A (f : nat -> HM A) : (forall n, kb (f n)) -> kb (fun h => f (size h) h).
Proof. intros Hf h Hh. apply Hf. auto. Qed.
Lemma kb_getc p : kb (getc p).
Proof. intros h Hh. unfold getc. destruct (hget h p); auto. Qed.
Lemma kb_deref o : kb (deref o).
Proof. intros h Hh. destruct o; auto. Qed.
Lemma kb_alloc o d : bare_data d -> kb (alloc o d).
Proof. intros Hd h Hh p c. unfold alloc, hget. cbn. rewrite PositiveMapAdditionalFacts.gsspec. destruct (PositiveMap.E.eq_dec p (nxt h)); [|apply Hh]. intros Hc. injection Hc as <-. exact Hd. Qed.
Lemma kb_upd f p : (forall c, bare_data (dat c) -> bare_data (dat (f c))) -> kb (upd f p).
Proof.
  intros Hf h Hh. unfold upd, hbind, getc, setc. destruct (hget h p) as [c|] eqn:Hp; [|auto]. cbn [snd].
  intros q k. rewrite hget_hset. destruct (Pos.eqb q p); [|apply Hh]. intros Hk. injection Hk as <-. apply Hf. eapply Hh; eauto.
Qed.
Lemma kb_lk f p : kb (upd (with_lk f) p). Proof. apply kb_upd. auto. Qed.
Lemma kb_data d p : bare_data d -> kb (setData p d). Proof. intros Hd. apply kb_upd. auto. Qed.

Ltac kbt := repeat match goal with
  | |- kb (hbind _ _) => apply kb_bind; [|intros]
  | |- kb (hret _) => apply kb_ret
  | |- kb (hfail _) => apply kb_fail
  | |- kb hpan => apply kb_pan
  | |- kb hoof => apply kb_oof
  | |- kb (hignore _) => apply kb_ignore
  | |- kb (getc _) => apply kb_getc
  | |- kb (deref _) => apply kb_deref
  | |- kb (alloc _ _) => apply kb_alloc; cbn; auto
  | |- kb (setData _ _) => apply kb_data; cbn; auto
  | |- kb (setFirst _ _) => apply kb_lk
  | |- kb (setLast _ _) => apply kb_lk
  | |- kb (setPar _ _) => apply kb_lk
  | |- kb (setNext _ _) => apply kb_lk
  | |- kb (setPrev _ _) => apply kb_lk
  | |- kb (if ?b then _ else _) => destruct b
  | |- kb (match ?x with _ => _ end) => destruct x
  | |- kb (let '(_, _) := ?x in _) => destruct x
  | _ => solve [auto with kb]
  end.
Lemma kb_lastSibling n : forall p, kb (lastSibling n p).
Proof. induction n; intros p; cbn [lastSibling]; kbt. apply IHn. Qed.
Lemma kb_addSibling p q : kb (addSibling p q).
Proof. unfold addSibling. apply kb_bind; [apply (kb_size _ (fun n => lastSibling n p)); intros; apply kb_lastSibling|]. intros. kbt. Qed.
#[local] Hint Resolve kb_addSibling : kb.
Lemma kb_AddSibling p q : kb (AddSibling p q).
Proof. unfold AddSibling. kbt. Qed.
#[local] Hint Resolve kb_AddSibling : kb.
Lemma kb_addChild p q : kb (addChild p q).
Proof. unfold addChild. kbt. Qed.
#[local] Hint Resolve kb_addChild : kb.
Lemma kb_AddChild p q : kb (AddChild p q).
Proof. unfold AddChild. kbt. Qed.
#[local] Hint Resolve kb_AddChild : kb.
Lemma kb_AddContent p b : kb (AddContent p b).
Proof. unfold AddContent. kbt. Qed.
Lemma kb_getDoc p : kb (getDoc p). Proof. unfold getDoc. kbt. Qed.
Lemma kb_getDtd p : kb (getDtd p). Proof. unfold getDtd. kbt. Qed.
#[local] Hint Resolve kb_getDoc kb_getDtd kb_AddContent : kb.
Lemma kb_GetEntity d n : kb (GetEntity d n).
Proof. unfold GetEntity, LookupEntity. kbt. Qed.
#[local] Hint Resolve kb_GetEntity : kb.
Lemma kb_SetNamespace e p u a : kb (SetNamespace e p u a).
Proof. unfold SetNamespace. kbt. Qed.
#[local] Hint Resolve kb_SetNamespace : kb.
Lemma kb_CreateCharRef d n : kb (CreateCharRef d n).
Proof. unfold CreateCharRef. kbt. Qed.
#[local] Hint Resolve kb_CreateCharRef : kb.
Lemma kb_CreateReference d n : kb (CreateReference d n).
Proof. unfold CreateReference. kbt. Qed.
#[local] Hint Resolve kb_CreateReference : kb.
Lemma kb_setParents n : forall p b o, kb (setParents n p b o).
Proof. induction n; intros p b o; destruct o; cbn [setParents]; kbt. Qed.
Lemma kb_setParents_size p b o : kb (fun h => setParents (size h) p b o h).
Proof. apply (kb_size _ (fun n => setParents n p b o)). intros. apply kb_setParents. Qed.
#[local] Hint Resolve kb_setParents_size : kb.
Lemma kb_linkNode rl p : kb (linkNode rl p).
Proof. unfold linkNode. kbt. Qed.
#[local] Hint Resolve kb_linkNode : kb.
Lemma kb_flushText d b rl : kb (flushText d b rl).
Proof. unfold flushText, CreateText. kbt. Qed.
#[local] Hint Resolve kb_flushText : kb.
Lemma kb_Content n p : kb (Content n p).
Proof. intros h Hh. exact Hh. Qed.
#[local] Hint Resolve kb_Content : kb.
Lemma kb_nodeList n : forall d rs b rl, kb (nodeList n d rs b rl).
Proof. induction n; intros d rs b rl; cbn [nodeList]; kbt. Qed.
#[local] Hint Resolve kb_nodeList : kb.
Lemma kb_CreateAttribute n d nm v : kb (CreateAttribute n d nm v).
Proof. unfold CreateAttribute, stringToNodeList. kbt. Qed.
#[local] Hint Resolve kb_CreateAttribute : kb.
Lemma kb_lastAttr n : forall nm p, kb (lastAttr n nm p).
Proof. induction n; intros nm p; cbn [lastAttr]; kbt. Qed.
Lemma kb_lastAttr_size nm p : kb (fun h => lastAttr (size h) nm p h).
Proof. apply (kb_size _ (fun n => lastAttr n nm p)). intros. apply kb_lastAttr. Qed.
#[local] Hint Resolve kb_lastAttr_size : kb.
Lemma kb_SetAttribute n e nm v : kb (SetAttribute n e nm v).
Proof. unfold SetAttribute. kbt. Qed.
#[local] Hint Resolve kb_SetAttribute : kb.
Lemma kb_setNamespaces e l : kb (setNamespaces e l).
Proof. induction l as [|[[p u]|] l IH]; cbn [setNamespaces]; kbt. Qed.
Lemma kb_setAttributes n e l : kb (setAttributes n e l).
Proof. induction l as [|a l IH]; cbn [setAttributes]; kbt. Qed.
#[local] Hint Resolve kb_setNamespaces kb_setAttributes : kb.
Lemma kb_attach d e p : kb (attach d e p).
Proof. unfold attach. kbt. Qed.
#[local] Hint Resolve kb_attach : kb.
Lemma kb_action n s v e : dtd_event e = false -> kb (tb_action n s v e).
Proof.
  intros He. unfold tb_action. destruct e; try discriminate He;
    unfold NewDocument, startElement, endElement, characters, TreeBuilder.comment, processingInstruction, TreeBuilder.reference, CreateElement, CreatePI, CreateComment; kbt.
Qed.

Lemma tree_event n s v e : bare (tb_heap s) -> dtd_event e = false -> bare (tb_heap (fst (h_event (treeH n) s v e))).
Proof.
  intros Hs He. cbn [h_event treeH]. unfold tb_event. pose proof (kb_action n s v e He (tb_heap s) Hs) as Hk.
  destruct (tb_action n s v e (tb_heap s)) as [[[d x]|x| |] h]; exact Hk.
Qed.
Lemma tree_entity n s v nm : bare (tb_heap s) -> forall x, snd (h_getEntity (treeH n) s v nm) <> Answer x false.
Proof.
  intros Hs x. cbn [h_getEntity treeH]. unfold tb_getEntity, GetEntity, getDoc, deref, hbind, hret, hpan, getc.
  destruct (tb_doc s) as [d|]; [|discriminate]. destruct (hget (tb_heap s) d) as [c|] eqn:Hc; [|discriminate].
  specialize (Hs d c Hc). destruct (dat c); try discriminate. destruct Hs as [-> ->]. discriminate.
Qed.
Lemma tree_init : bare (tb_heap tb_init).
Proof. intros p c Hp. cbn in Hp. unfold hget, empty_heap in Hp. cbn in Hp. rewrite PositiveMap.gempty in Hp. discriminate. Qed.

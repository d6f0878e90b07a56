(* The tree builder does not panic on an event of a document without a document
   type declaration, provided the list of namespaces has no nil entry. *)
From Coq Require Import FMapPositive Permutation.
From Verif Require Import Base Utf8 Utf8Proofs XmlSpec Escape Scan Parser Heap TreeBuilder TreeShape TreeOps Forest ForestOps ForestAdd
  ForestAttr History TreeCalls DtdProofs DtdHistory Xml Mirror XmlBuild XmlSteps XmlElem XmlTree XmlGrammar.

(* between the start and the end of a document *)
Definition placed (s : tb) : Prop := wf (tb_heap s) /\
  exists d, tb_doc s = Some d /\ kind (tb_heap s) d = Some DocumentNode /\
    (tb_elem s = None \/ exists e, tb_elem s = Some e /\ kind (tb_heap s) e = Some ElementNode).
(* the events of content, with what the parser reports of attributes; f: the fuel
   of the tree builder *)
Definition plain_event (f : nat) (e : event) : Prop :=
  match e with
  | EEndDocument | EProcessingInstruction _ _ | EEndElement _ _ _ | ECharacters _ | ECDataBlock _ | EIgnorableWhitespace _ | EComment _ => True
  | EStartElement _ _ _ ns atts => ~ In None ns /\ (exists a', mirrors_atts atts a') /\
      forall a b w, In (AAttr a b w) atts -> (List.length w < f)%nat
  | _ => False
  end.

Lemma kind_keeps h h' x k : keeps h h' -> kind h x = Some k -> kind h' x = Some k.
Proof.
  intros K E. specialize (K x). unfold kind, data_of in *. destruct (hget h x) as [c|]; [|discriminate]. cbn in E.
  destruct (hget h' x) as [c'|]; [|contradiction]. cbn. destruct K as (_ & -> & _). exact E.
Qed.
Lemma kind_live h x k : kind h x = Some k -> live h x.
Proof. unfold kind, data_of. destruct (hget h x) as [c|] eqn:E; [|discriminate]. intros _. exists c. exact E. Qed.
Lemma kind_free h x k : wf h -> kind h x = Some k -> k = ElementNode \/ k = DocumentNode -> ~ in_attr h x.
Proof.
  intros (F & G & FH) E K. unfold kind, data_of in E. destruct (hget h x) as [c|] eqn:Ec; [|discriminate]. cbn in E. injection E as E.
  destruct (forest_live _ _ _ _ _ FH Ec) as [X|[[X _]|(a & ca & t & _ & _ & _ & X & _)]].
  - eapply tree_not_attr; eassumption.
  - exfalso. destruct (dat c); cbn in X, E; try discriminate. destruct K; subst k; discriminate.
  - exfalso. rewrite X in E. destruct K; subst k; discriminate.
Qed.
Lemma extends_kind h h' x k : extends h h' -> kind h x = Some k -> kind h' x = Some k.
Proof. intros [_ X]. unfold kind, data_of. destruct (hget h x) as [c|] eqn:E; [|discriminate]. rewrite (X _ _ E). auto. Qed.

(* where nodes are attached *)
Lemma placed_at s : placed s -> exists p, (match tb_elem s with Some e => e = p | None => tb_doc s = Some p end) /\
  (kind (tb_heap s) p = Some ElementNode \/ kind (tb_heap s) p = Some DocumentNode).
Proof.
  intros (W & d & D & K & [E|(e & E & Ke)]); rewrite E; [exists d|exists e]; auto.
Qed.
Lemma placed_by s h : placed s -> wf h -> keeps (tb_heap s) h -> placed (with_heap h s).
Proof.
  intros (W & d & D & K & E) W' Kp. split; [exact W'|]. exists d. cbn [with_heap tb_heap tb_doc tb_elem].
  split; [exact D|]. split; [eapply kind_keeps; eassumption|]. destruct E as [E|(e & E & Ke)]; [auto|right].
  exists e. split; [exact E|eapply kind_keeps; eassumption].
Qed.

Lemma attach_run s h q cq p : wf h -> (match tb_elem s with Some e => e = p | None => tb_doc s = Some p end) ->
  attachable h p q -> hget h q = Some cq -> typeOf (dat cq) <> DocumentNode ->
  exists h', attach (tb_doc s) (tb_elem s) q h = (Ret tt, h') /\ wf h' /\ keeps h h'.
Proof.
  intros (F & G & FH) P A Eq Nq. destruct (AddChild_forest _ _ _ _ _ FH A) as (r & h' & R & Ef & F' & FH').
  exists h'. assert (Kp : keeps h h') by (eapply keeps_child; eassumption). split; [|split; [exists F', G; exact FH'|exact Kp]].
  assert (Rr : hignore (AddChild p q) h = (Ret tt, h')).
  { unfold hignore. rewrite R. destruct Ef; reflexivity. }
  unfold attach. destruct (tb_elem s) as [e|]; [subst e; exact Rr|]. rewrite P. unfold deref. rewrite (hbind_ret _ _ _ p _ eq_refl). exact Rr.
Qed.

Lemma parent_live h e c p : wf h -> hget h e = Some c -> l_par (lk c) = Some p -> exists k, hget h p = Some k.
Proof.
  intros W E P. destruct (wf_consistent _ W e c E) as [_ Gr].
  inversion Gr as [p0 c0 E0 N0 H0|p0 c0 q E0 P0 G0 H0]; subst p0; rewrite E in E0; injection E0 as <-; [congruence|].
  rewrite P in P0. injection P0 as <-. inversion G0; eauto.
Qed.

(* the heap grows by an element, then a node is attached or text added *)
Definition evolves (h h' : heap) : Prop := exists h1, wf h1 /\ extends h h1 /\ keeps h1 h'.
Lemma evolves_keeps h h' : wf h -> keeps h h' -> evolves h h'.
Proof. intros W K. exists h. split; [exact W|]. split; [split; [lia|auto]|exact K]. Qed.
Definition acted (f : nat) (s : tb) (v : view) (e : event) : Prop :=
  exists r h, tb_action f s v e (tb_heap s) = (r, h) /\
    match r with Ret (d, x) => placed {| tb_heap := h; tb_doc := d; tb_elem := x |} /\ d = tb_doc s /\ evolves (tb_heap s) h | Fail _ => True | _ => False end.
Lemma acted_evolves f s v e : acted f s v e -> snd (tb_event f s v e) = HNil ->
  tb_doc (fst (tb_event f s v e)) = tb_doc s /\ evolves (tb_heap s) (tb_heap (fst (tb_event f s v e))).
Proof.
  intros (r & h & R & A). unfold tb_event. rewrite R. destruct r as [[d x]|er| |]; try contradiction; cbn [fst snd]; try discriminate. intros _. apply A.
Qed.
Lemma acted_event f s v e : acted f s v e -> snd (tb_event f s v e) <> HPanic /\ (snd (tb_event f s v e) = HNil -> placed (fst (tb_event f s v e))).
Proof.
  intros (r & h & R & A). unfold tb_event. rewrite R. destruct r as [[d x]|er| |]; try contradiction; split; cbn [fst snd]; try discriminate. intros _. apply A.
Qed.
Lemma same_acted s (m : HM unit) r h : placed s -> m (tb_heap s) = (r, h) ->
  match r with Ret _ => wf h /\ keeps (tb_heap s) h | Fail _ => True | _ => False end ->
  exists r h, hbind m (fun _ => hret (tb_doc s, tb_elem s)) (tb_heap s) = (r, h) /\
    match r with Ret (d, x) => placed {| tb_heap := h; tb_doc := d; tb_elem := x |} /\ d = tb_doc s /\ evolves (tb_heap s) h | Fail _ => True | _ => False end.
Proof.
  intros P R K. unfold hbind. rewrite R. destruct r as [a|er| |]; try contradiction; eexists _, _; (split; [reflexivity|]); [|exact I].
  cbv beta iota. split; [exact (placed_by s h P (proj1 K) (proj2 K))|]. split; [reflexivity|]. apply evolves_keeps; [apply P|apply K].
Qed.

(* a new node, attached *)
Lemma add_new s o d : placed s -> fresh_data d -> typeOf d <> DocumentNode ->
  let h1 := with_new (tb_heap s) {| lk := nolinks; owner := o; dat := d |} in
  exists h', attach (tb_doc s) (tb_elem s) (nxt (tb_heap s)) h1 = (Ret tt, h') /\ wf h' /\ keeps (tb_heap s) h'.
Proof.
  intros P D N h1. destruct (placed_at s P) as (p & At & K). pose proof P as (W & _).
  destruct (new_node (tb_heap s) o d W D) as (W1 & X1 & N1 & E1). fold h1 in W1, X1, N1, E1.
  destruct W as (F & G & FH).
  assert (A : attachable h1 p (nxt (tb_heap s))).
  { eapply attach_new; [exact FH|exact D| |]; [destruct K; eapply kind_live; eassumption|].
    destruct K as [K|K]; eapply kind_free; [exists F, G; exact FH|exact K|auto|exists F, G; exact FH|exact K|auto]. }
  destruct (attach_run s h1 _ _ p W1 At A E1 N) as (h' & R & W' & Kp). exists h'. split; [exact R|]. split; [exact W'|].
  eapply keeps_trans; [|exact Kp]. apply keeps_new; [eapply wf_ok; exists F, G; exact FH|reflexivity].
Qed.

Lemma characters_acted s b : placed s -> exists r h, characters (tb_elem s) b (tb_heap s) = (r, h) /\
  match r with Ret _ => wf h /\ keeps (tb_heap s) h | Fail _ => True | _ => False end.
Proof.
  intros P. pose proof P as (W & d & D & K & E). unfold characters. destruct E as [->|(e & -> & Ke)]; [eexists _, _; split; [reflexivity|exact I]|].
  pose proof W as (F & G & FH).
  destruct (AddContent_forest _ _ _ e b FH (kind_live _ _ _ Ke) (kind_free _ _ _ W Ke (or_introl eq_refl))) as (r & h' & R & Ef & F' & FH').
  exists r, h'. split; [exact R|].
  assert (Kp : keeps (tb_heap s) h').
  { destruct Ef as [cp t h' Ep Dp Rd|cp t h' Ep Dp Rd|cp r h' Ep Nk Ce].
    - eapply keeps_redata; [exact Rd|exact Ep|..]; rewrite ?Dp; try reflexivity; discriminate.
    - eapply keeps_redata; [exact Rd|exact Ep|..]; rewrite ?Dp; try reflexivity; discriminate.
    - refine (keeps_trans _ _ _ (keeps_new _ {| lk := nolinks; owner := None; dat := DText b |} (wf_ok _ W) eq_refl) _). eapply keeps_child; [exact Ce|rewrite hget_new, Pos.eqb_refl; reflexivity|discriminate]. }
  assert (Nr : r = Ret tt \/ exists x, r = Fail x).
  { destruct Ef as [| |cp r h' Ep Nk Ce]; auto. destruct Ce; eauto. }
  destruct Nr as [->|(x & ->)]; [|exact I]. split; [exists F', G; exact FH'|exact Kp].
Qed.

Lemma no_nil_ns (ns : list (option (str * str))) : ~ In None ns -> exists l, ns = map Some l.
Proof.
  induction ns as [|[x|] ns IH]; intro N; [exists []; reflexivity| |exfalso; apply N; left; reflexivity].
  destruct IH as (l & ->); [intro X; apply N; right; exact X|]. exists (x :: l). reflexivity.
Qed.
Lemma NoDup_str_dec (l : list str) : NoDup l \/ ~ NoDup l.
Proof.
  destruct (ListDec.NoDup_dec (list_eq_dec Z.eq_dec) l); auto.
Qed.
Lemma extends_keeps h h' : hok h -> extends h h' -> (forall x c, hget h x = None -> hget h' x = Some c -> typeOf (dat c) = DocumentNode -> l_par (lk c) = None) -> keeps h h'.
Proof.
  intros Ok [_ X] N x. destruct (hget h x) as [c|] eqn:E.
  - rewrite (X _ _ E). auto.
  - destruct (hget h' x) as [c|] eqn:E'; [|exact I]. intro T. exact (N _ _ E E' T).
Qed.

Lemma step_start f s v l p u ns atts : placed s -> plain_event f (EStartElement l p u ns atts) -> acted f s v (EStartElement l p u ns atts).
Proof.
  intros P (Nn & (atts' & Ma) & Sh). destruct (no_nil_ns _ Nn) as (nl & ->). pose proof P as (W & d & D & K & E). set (h := tb_heap s) in *.
  destruct (dressed_new h (tb_doc s) l W) as (ha & Ra & Da).
  destruct (dressed_space _ _ _ _ _ _ _ _ p u Da) as (hb & Rb & Db).
  destruct (dressed_defs _ _ _ _ _ _ nl _ _ Db) as (hc & Rc & Dc). cbn [app] in Dc.
  unfold acted, tb_action, startElement. fold h.
  destruct (NoDup_str_dec (map fst atts')) as [Nd|Nd].
  - destruct (dressed_attrs f _ _ _ _ _ _ _ Ma _ _ _ Dc Nd Sh) as (hd & A & Rd & Dd).
    destruct Dd as [W2 _ X2 _ Lt2 (c2 & props & E2 & L2 & Dt2 & P2) At2].
    destruct (placed_at s P) as (y & At & Ky). fold h in Ky.
    assert (Ly : kind hd y = Some ElementNode \/ kind hd y = Some DocumentNode).
    { destruct Ky; [left|right]; eapply extends_kind; eassumption. }
    assert (Ne : y <> nxt h).
    { intros ->. pose proof (wf_ok _ W) as Ok. assert (Z : live h (nxt h)) by (destruct Ky; eapply kind_live; eassumption).
      destruct Z as (z & Z). apply Ok in Z. lia. }
    assert (Ab : attachable hd y (nxt h)).
    { refine (conj _ (conj _ (conj _ _))).
      - destruct Ly; eapply kind_live; eassumption.
      - destruct Ly as [Ly|Ly]; eapply kind_free; [exact W2|exact Ly|auto|exact W2|exact Ly|auto].
      - exists c2. rewrite L2, Dt2. auto.
      - intro An. assert (Ch : childless hd (nxt h)) by (eapply childless_of; [exact W2|exact E2|rewrite Dt2; reflexivity|rewrite L2; reflexivity]).
        apply (childless_ancestor _ _ _ Ch) in An. exact (Ne An). }
    destruct (attach_run s hd _ _ y W2 At Ab E2) as (h' & R & W' & Kp); [rewrite Dt2; discriminate|].
    eexists _, h'. split.
    + erewrite hbind_ret; [reflexivity|].
      rewrite (hbind_ret _ _ _ _ _ Ra). cbv beta.
      rewrite (hbind_ret _ _ _ _ _ Rb). cbv beta.
      rewrite (hbind_ret _ _ _ _ _ Rc). cbv beta.
      rewrite (hbind_ret _ _ _ _ _ Rd). cbv beta.
      rewrite (hbind_ret _ _ _ _ _ R). reflexivity.
    + cbv beta iota. split; [|split; [reflexivity|exists hd; auto]]. split; [exact W'|]. exists d. cbn [tb_heap tb_doc tb_elem]. split; [exact D|].
      split; [eapply kind_keeps; [exact Kp|eapply extends_kind; eassumption]|]. right. exists (nxt h). split; [reflexivity|].
      eapply kind_keeps; [exact Kp|]. unfold kind, data_of. rewrite E2. cbn. rewrite Dt2. reflexivity.
  - destruct (dup_attrs f _ _ _ _ _ _ _ Ma _ _ _ Dc (NoDup_nil _) Nd Sh) as (hd & Rd).
    exists (Fail "ErrDuplicateAttribute"%string), hd. split; [|exact I]. erewrite hbind_fail; [reflexivity|].
    rewrite (hbind_ret _ _ _ _ _ Ra). cbv beta.
    rewrite (hbind_ret _ _ _ _ _ Rb). cbv beta.
    rewrite (hbind_ret _ _ _ _ _ Rc). cbv beta.
    rewrite (hbind_fail _ _ _ _ _ Rd). reflexivity.
Qed.

Lemma step_end f s v l p u : placed s -> acted f s v (EEndElement l p u).
Proof.
  intros P. pose proof P as (W & d & D & K & E). unfold acted, tb_action, endElement.
  destruct E as [->|(e & -> & Ke)]; [eexists _, _; split; [reflexivity|exact I]|].
  destruct (kind_live _ _ _ Ke) as (c & Ec).
  destruct (l_par (lk c)) as [q|] eqn:Pc.
  - destruct (parent_live _ _ _ _ W Ec Pc) as (k & Ek).
    exists (Ret (tb_doc s, match dat k with DElem _ _ _ _ => Some q | _ => None end)), (tb_heap s). split.
    + erewrite hbind_ret; [reflexivity|]. rewrite (bind_getc _ _ _ _ Ec). cbv beta. rewrite Pc. rewrite (bind_getc _ _ _ _ Ek). cbv beta.
      destruct (dat k); reflexivity.
    + cbv beta iota. split; [|split; [reflexivity|apply evolves_keeps; [exact W|apply keeps_refl]]]. split; [exact W|]. exists d. cbn [tb_heap tb_doc tb_elem]. split; [exact D|]. split; [exact K|].
      destruct (dat k) eqn:Dk; try (left; reflexivity). right. exists q. split; [reflexivity|].
      unfold kind, data_of. rewrite Ek. cbn. rewrite Dk. reflexivity.
  - exists (Ret (tb_doc s, None)), (tb_heap s). split.
    + erewrite hbind_ret; [reflexivity|]. rewrite (bind_getc _ _ _ _ Ec). cbv beta. rewrite Pc. reflexivity.
    + cbv beta iota. split; [|split; [reflexivity|apply evolves_keeps; [exact W|apply keeps_refl]]]. split; [exact W|]. exists d. cbn [tb_heap tb_doc tb_elem]. auto.
Qed.

Lemma tree_acts f s v e : placed s -> plain_event f e -> v_inSubset v = 0%Z -> acted f s v e.
Proof.
  intros P Pl V. destruct e; try contradiction Pl.
  - refine (same_acted s _ (Ret tt) (tb_heap s) P eq_refl _). split; [apply P|apply keeps_refl].
  - destruct (add_new s None (DPI target data) P I ltac:(discriminate)) as (h' & R & W & Kp).
    refine (same_acted s _ (Ret tt) h' P _ (conj W Kp)). unfold processingInstruction. rewrite V. exact R.
  - apply step_start; assumption.
  - apply step_end; assumption.
  - destruct (characters_acted s s0 P) as (r & h' & R & Q). exact (same_acted s _ r h' P R Q).
  - refine (same_acted s _ (Ret tt) (tb_heap s) P eq_refl _). split; [apply P|apply keeps_refl].
  - destruct (characters_acted s s0 P) as (r & h' & R & Q). exact (same_acted s _ r h' P R Q).
  - pose proof P as (_ & d & D & _). destruct (add_new s (tb_doc s) (DComment s0) P I ltac:(discriminate)) as (h' & R & W & Kp).
    refine (same_acted s _ (Ret tt) h' P _ (conj W Kp)). unfold comment. rewrite D in *. exact R.
Qed.
Theorem tree_step f s v e : placed s -> plain_event f e -> v_inSubset v = 0%Z ->
  snd (tb_event f s v e) <> HPanic /\ (snd (tb_event f s v e) = HNil -> placed (fst (tb_event f s v e))).
Proof. intros. apply acted_event, tree_acts; assumption. Qed.

(* the start of a document *)
Lemma tree_begin f s v : wf (tb_heap s) -> tb_elem s = None ->
  snd (tb_event f s v EStartDocument) = HNil /\ placed (fst (tb_event f s v EStartDocument)).
Proof.
  intros W E. unfold tb_event, tb_action, NewDocument, alloc. rewrite E. cbn [fst snd hbind hret].
  destruct (new_node (tb_heap s) None (DDoc (v_version v) (v_encoding v) (v_standalone v) None None) W I) as (W1 & X1 & N1 & E1).
  split; [reflexivity|]. cbv beta iota. split; [exact W1|]. exists (nxt (tb_heap s)). split; [reflexivity|]. split; [|left; reflexivity].
  unfold kind, data_of. cbn [tb_heap fst]. unfold with_new in E1. rewrite E1. reflexivity.
Qed.

(* a nil entry in the list of namespaces always panics *)
Lemma dressed_nil h0 e nm sp A l ns : forall defs h, dressed h0 e nm sp defs A l h -> In None ns ->
  exists h', setNamespaces e ns h = (Pan, h').
Proof.
  induction ns as [|[[p u]|] ns IH]; intros defs h D X; [destruct X| |eexists; reflexivity].
  destruct X as [X|X]; [discriminate|]. cbn [setNamespaces].
  destruct (dr_cell _ _ _ _ _ _ _ _ D) as (c & props & Ec & Lc & Dc & P).
  destruct (dressed_redata _ _ _ _ _ _ _ _ sp (defs ++ [(p, u)]) _ _ D Ec Dc) as (h1 & R & D1).
  assert (R1 : SetNamespace e p u false h = (Ret tt, h1)).
  { unfold SetNamespace. rewrite (bind_getc _ _ _ _ Ec). cbv beta. rewrite Dc. exact R. }
  rewrite (hbind_ret _ _ _ _ _ R1). cbv beta. exact (IH _ _ D1 X).
Qed.
Lemma nil_panics f s v l p u ns atts : placed s -> In None ns -> snd (tb_event f s v (EStartElement l p u ns atts)) = HPanic.
Proof.
  intros (W & _) X. set (h := tb_heap s) in *.
  destruct (dressed_new h (tb_doc s) l W) as (ha & Ra & Da).
  destruct (dressed_space _ _ _ _ _ _ _ _ p u Da) as (hb & Rb & Db).
  destruct (dressed_nil _ _ _ _ _ _ ns _ _ Db X) as (hc & Rc).
  unfold tb_event, tb_action, startElement. fold h.
  erewrite hbind_pan; [reflexivity|].
  rewrite (hbind_ret _ _ _ _ _ Ra). cbv beta.
  rewrite (hbind_ret _ _ _ _ _ Rb). cbv beta.
  rewrite (hbind_pan _ _ _ _ Rc). reflexivity.
Qed.

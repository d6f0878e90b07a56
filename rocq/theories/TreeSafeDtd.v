(* The tree builder does not panic on the declarations of a document type
   declaration either: what it keeps of the document and its internal subset. *)
From Coq Require Import FMapPositive Permutation.
From Verif Require Import Base Utf8 Utf8Proofs XmlSpec Escape Scan Parser Heap TreeBuilder TreeShape TreeOps Forest ForestOps ForestAdd
  ForestAttr History TreeCalls DtdProofs DtdHistory Xml Mirror XmlBuild XmlSteps XmlElem XmlTree XmlGrammar TreeSafe.
Local Open Scope Z_scope.

(* ---- the document and its internal subset ---- *)
Definition decl_ok (h : heap) (d : ptr) : Prop := no_doc h d /\
  exists v en sa i, data_of h d = Some (DDoc v en sa i None) /\ match i with None => True | Some q => exists t, dtd_ok h q t end.
Definition standing (s : tb) : Prop := placed s /\ exists d, tb_doc s = Some d /\ decl_ok (tb_heap s) d.
Definition has_dtd (s : tb) : Prop := exists d v en sa q, tb_doc s = Some d /\ data_of (tb_heap s) d = Some (DDoc v en sa (Some q) None).

Lemma doc_kind h d v en sa i x : data_of h d = Some (DDoc v en sa i x) -> kind h d = Some DocumentNode.
Proof. unfold kind. intros ->. reflexivity. Qed.
Lemma live_children h x c : wf h -> hget h x = Some c -> is_attr (dat c) = false -> exists cs, children h x cs.
Proof. intros W E A. destruct (wf_consistent _ W x c E) as [K _]. exact (K A). Qed.

(* old cells stay: an old node gets no new child *)
Definition older (h h' : heap) : Prop := forall x c, hget h x = Some c -> hget h' x = Some c.
Lemma older_data h h' x d : older h h' -> data_of h x = Some d -> data_of h' x = Some d.
Proof. intros X D. apply data_of_some in D as (c & E & <-). unfold data_of. rewrite (X _ _ E). reflexivity. Qed.
Lemma older_parent h h' d c x : wf h -> wf h' -> older h h' -> hget h d = Some c -> is_attr (dat c) = false ->
  parent_of h' x = Some d -> parent_of h x = Some d.
Proof.
  intros W W' X E A P. destruct (live_children _ _ _ W E A) as (cs & c1 & E1 & P1 & _ & _ & I1).
  destruct (live_children _ _ _ W' (X _ _ E) A) as (cs' & c2 & E2 & P2 & _ & _ & I2).
  rewrite E in E1. injection E1 as <-. rewrite (X _ _ E) in E2. injection E2 as <-.
  assert (Q : TreeShape.path h' (l_first (lk c)) cs).
  { eapply path_same; [exact P1|]. intros y cy _ Ey. exists cy. rewrite (X _ _ Ey). auto. }
  rewrite (path_fun _ _ _ Q _ P2) in I1. apply I1, I2, P.
Qed.
Lemma older_nodoc h h' d c : wf h -> wf h' -> older h h' -> hget h d = Some c -> is_attr (dat c) = false -> no_doc h d -> no_doc h' d.
Proof.
  intros W W' X E A N x P K. pose proof (older_parent _ _ _ _ _ W W' X E A P) as P0. apply (N x P0).
  unfold parent_of in P0. destruct (hget h x) as [cx|] eqn:Ex; [|discriminate]. rewrite (kind_some _ _ _ Ex).
  rewrite (kind_some _ _ _ (X _ _ Ex)) in K. exact K.
Qed.
Lemma older_tabs h h' t : older h h' -> tabs_ok h t -> tabs_ok h' t.
Proof.
  intros X (A1 & A2 & A3 & A4). refine (conj _ (conj _ (conj _ _))); intros k p Ep.
  - destruct (A1 k p Ep) as (n & pf & ty & ct & D & Q). exists n, pf, ty, ct. split; [eapply older_data; eassumption|exact Q].
  - destruct (A2 k p Ep) as (el & nm & pf & ty & df & v & en & D & Q). exists el, nm, pf, ty, df, v, en. split; [eapply older_data; eassumption|exact Q].
  - destruct (A3 k p Ep) as (ty & ex & sy & ct & og & D & Q). exists ty, ex, sy, ct, og. split; [eapply older_data; eassumption|exact Q].
  - destruct (A4 k p Ep) as (ty & ex & sy & ct & og & D & Q). exists ty, ex, sy, ct, og. split; [eapply older_data; eassumption|exact Q].
Qed.
Lemma dtd_free h q c n e s t : wf h -> hget h q = Some c -> dat c = DDtd n e s t -> ~ in_attr h q.
Proof.
  intros (F & G & FH) E D. destruct (forest_live _ _ _ _ _ FH E) as [X|[[X _]|(a & ca & ss & _ & _ & _ & X & _)]]; [exact (tree_not_attr _ _ _ _ FH X)|rewrite D in X; discriminate..].
Qed.
Lemma older_dtd h h' q t : wf h -> wf h' -> older h h' -> dtd_ok h q t -> dtd_ok h' q t.
Proof.
  intros W W' X (_ & _ & ND & T & (c & n & e & s & Ec & Dc & Oc)).
  refine (conj W' (conj _ (conj _ (conj (older_tabs _ _ _ X T) _)))).
  - eapply dtd_free; [exact W'|exact (X _ _ Ec)|exact Dc].
  - eapply older_nodoc; [exact W|exact W'|exact X|exact Ec|rewrite Dc; reflexivity|exact ND].
  - exists c, n, e, s. split; [exact (X _ _ Ec)|]. split; [exact Dc|]. destruct (owner c) as [d|]; [|exact I].
    destruct Oc as (v & en & sa & i & x & Ed & Y). exists v, en, sa, i, x. split; [eapply older_data; eassumption|exact Y].
Qed.
Lemma older_decl h h' d : wf h -> wf h' -> older h h' -> decl_ok h d -> decl_ok h' d.
Proof.
  intros W W' X (N & v & en & sa & i & D & Q). pose proof D as D0. apply data_of_some in D0 as (c & E & Dc). split.
  - eapply older_nodoc; [exact W|exact W'|exact X|exact E|rewrite Dc; reflexivity|exact N].
  - exists v, en, sa, i. split; [eapply older_data; eassumption|]. destruct i as [q|]; [|exact I]. destruct Q as (t & Q). exists t. exact (older_dtd h h' q t W W' X Q).
Qed.
Lemma nodoc_keeps h h' d : keeps h h' -> no_doc h d -> no_doc h' d.
Proof.
  intros K N x Px Kx. unfold parent_of in Px. destruct (hget h' x) as [cx|] eqn:Ex; [|discriminate].
  rewrite (kind_some _ _ _ Ex) in Kx. injection Kx as Kx. specialize (K x). rewrite Ex in K. destruct (hget h x) as [c0|] eqn:E0.
  - destruct K as (_ & K2 & _ & K4). apply (N x); [unfold parent_of; rewrite E0; rewrite <- K4 by congruence; exact Px|].
    rewrite (kind_some _ _ _ E0). congruence.
  - rewrite K in Px by exact Kx. discriminate.
Qed.
Lemma keeps_decl h h' d : wf h' -> keeps h h' -> decl_ok h d -> decl_ok h' d.
Proof.
  intros W' K (N & v & en & sa & i & D & Q). split; [eapply nodoc_keeps; eassumption|].
  exists v, en, sa, i. split; [eapply keeps_data; [exact K|exact D|reflexivity]|]. destruct i as [q|]; [|exact I].
  destruct Q as (t & Q). exists t. eapply dtd_keeps; eassumption.
Qed.
Lemma evolves_decl h h' d : wf h -> wf h' -> evolves h h' -> decl_ok h d -> decl_ok h' d.
Proof. intros W W' (h1 & W1 & [_ X] & K) D. eapply keeps_decl; [exact W'|exact K|]. exact (older_decl h h1 d W W1 X D). Qed.
Lemma evolves_doc h h' d v en sa i x : evolves h h' -> data_of h d = Some (DDoc v en sa i x) -> data_of h' d = Some (DDoc v en sa i x).
Proof. intros (h1 & _ & [_ X] & K) D. eapply keeps_data; [exact K|eapply older_data; [exact X|exact D]|reflexivity]. Qed.

(* ---- an event of content ---- *)
Definition acts (f : nat) (s : tb) (v : view) (e : event) : Prop :=
  snd (tb_event f s v e) <> HPanic /\ (snd (tb_event f s v e) = HNil -> standing (fst (tb_event f s v e)) /\ (has_dtd s -> has_dtd (fst (tb_event f s v e)))).
Lemma acted_acts f s v e : standing s -> acted f s v e -> acts f s v e.
Proof.
  intros (P & d & D & K) A. destruct (acted_event _ _ _ _ A) as [N Q]. split; [exact N|]. intros R. specialize (Q R).
  destruct (acted_evolves _ _ _ _ A R) as [Ed Ev]. split.
  - split; [exact Q|]. exists d. split; [congruence|]. eapply evolves_decl; [apply P|apply Q|exact Ev|exact K].
  - intros (d' & v' & en & sa & q & D' & X). exists d', v', en, sa, q. split; [congruence|]. eapply evolves_doc; eassumption.
Qed.
Lemma plain_acts f s v e : standing s -> plain_event f e -> v_inSubset v = 0 \/ (forall t x, e <> EProcessingInstruction t x) -> acts f s v e.
Proof.
  intros S Pe V. apply acted_acts; [exact S|]. destruct V as [V|V]; [apply tree_acts; [apply S|exact Pe|exact V]|].
  set (v0 := {| v_version := v_version v; v_encoding := v_encoding v; v_standalone := v_standalone v; v_inSubset := 0 |}).
  pose proof (tree_acts f s v0 e (proj1 S) Pe eq_refl) as A. destruct e; try exact A; try contradiction Pe. exfalso. eapply V. reflexivity.
Qed.

(* ---- the declarations ---- *)
Definition settled (h h' : heap) : Prop :=
  (forall x k, kind h x = Some k -> kind h' x = Some k) /\
  (forall x y, data_of h x = Some y -> typeOf y <> DTDNode -> data_of h' x = Some y) /\
  (forall d, kind h d = Some DocumentNode -> no_doc h d -> no_doc h' d).
Lemma settled_refl h : settled h h.
Proof. repeat split; auto. Qed.
Lemma settled_older h h' : wf h -> wf h' -> older h h' -> settled h h'.
Proof.
  intros W W' X. refine (conj _ (conj _ _)).
  - intros x k. unfold kind. destruct (data_of h x) eqn:D; [|discriminate]. rewrite (older_data _ _ _ _ X D). auto.
  - intros x y D _. eapply older_data; eassumption.
  - intros d K N. unfold kind in K. destruct (data_of h d) as [y|] eqn:D; [|discriminate]. apply data_of_some in D as (c & E & Dc).
    eapply older_nodoc; [exact W|exact W'|exact X|exact E| |exact N]. rewrite Dc. destruct y; try discriminate; reflexivity.
Qed.
Lemma settled_registered h h' dtd t q dq oq : typeOf dq <> DocumentNode -> registered h h' dtd t q dq oq -> settled h h'.
Proof.
  intros Nd (Fq & Dq & _ & Pq & (n & e & s & t0 & D0 & D1) & O & _). refine (conj _ (conj _ _)).
  - intros x k K. unfold kind in *. destruct (Pos.eq_dec x dtd) as [->|Hx]; [rewrite D0 in K; rewrite D1; exact K|].
    destruct (Pos.eq_dec x q) as [->|Hq]; [unfold data_of in K; rewrite Fq in K; discriminate|].
    destruct (O x Hq) as (_ & _ & ->); auto.
  - intros x y D Hy. destruct (Pos.eq_dec x dtd) as [->|Hx]; [rewrite D0 in D; injection D as <-; contradiction Hy; reflexivity|].
    destruct (Pos.eq_dec x q) as [->|Hq]; [unfold data_of in D; rewrite Fq in D; discriminate|].
    destruct (O x Hq) as (_ & _ & ->); auto.
  - intros d K N x Px Kx. destruct (Pos.eq_dec x q) as [->|Hq].
    + unfold kind in Kx. rewrite Dq in Kx. injection Kx as Kx. contradiction.
    + destruct (O x Hq) as (_ & P2 & P3). rewrite P2 in Px. apply (N x Px). unfold kind in *. destruct (Pos.eq_dec x dtd) as [->|Hx]; [rewrite D1 in Kx; discriminate|].
      rewrite <- P3 by exact Hx. exact Kx.
Qed.
Lemma declare_run dtd k h t : dtd_ok h dtd t -> exists r h' t', declare dtd k h = (r, h') /\ (match r with Ret _ | Fail _ => True | _ => False end) /\
  dtd_ok h' dtd t' /\ settled h h'.
Proof.
  intros W. pose proof (settled_refl h) as Sr. destruct k as [name typ pub sys ct|name typ ct|el nm pf ty df v en]; cbn [declare].
  - assert (D : 1 <= typ <= 5 \/ ~ (1 <= typ <= 5)) by lia. destruct D as [D|D].
    + destruct (AddEntity_run h dtd t name typ pub sys ct W D) as (q & h2 & oq & R2 & Rg & _ & W').
      eexists _, h2, _. split; [exact R2|]. split; [exact I|]. split; [exact W'|]. eapply settled_registered; [|exact Rg]. discriminate.
    + destruct (AddEntity_bad h dtd t name typ pub sys ct W D) as (e & R2). eexists _, h, t. split; [exact R2|]. auto.
  - destruct (prefix_local name) as [prefix local] eqn:PL. destruct (fits_dec typ ct) as [D|D].
    + destruct (tget (t_elems t) (elem_key local prefix)) as [q|] eqn:Eq.
      * destruct (AddElementDecl_again h dtd t W name local prefix typ ct PL q D Eq) as (e & R2). eexists _, h, t. split; [exact R2|]. auto.
      * destruct (AddElementDecl_new h dtd t W name local prefix typ ct PL D Eq) as (q & h2 & oq & R2 & Rg & _ & W').
        eexists _, h2, _. split; [exact R2|]. split; [exact I|]. split; [exact W'|]. eapply settled_registered; [|exact Rg]. discriminate.
    + destruct (AddElementDecl_unfit h dtd t W name typ ct D) as (e & R2). eexists _, h, t. split; [exact R2|]. auto.
  - assert (D : 1 <= ty <= 10 \/ ~ (1 <= ty <= 10)) by lia. destruct D as [D|D].
    + destruct (tget (t_attrs t) (attr_key nm pf el)) as [q|] eqn:Eq.
      * destruct (addAttributeDecl_again h dtd t W el nm pf ty df v en q D Eq) as (e & h2 & R2 & Old & W').
        eexists _, h2, t. split; [exact R2|]. split; [exact I|]. split; [exact W'|]. apply settled_older; [apply W|apply W'|exact Old].
      * destruct (addAttributeDecl_new h dtd t W el nm pf ty df v en D Eq) as (q & h2 & oq & R2 & Rg & _ & W').
        eexists _, h2, _. split; [exact R2|]. split; [exact I|]. split; [exact W'|]. eapply settled_registered; [|exact Rg]. discriminate.
    + destruct (addAttributeDecl_bad h dtd el nm pf ty df v en D) as (e & R2). eexists _, h, t. split; [exact R2|]. auto.
Qed.

Lemma settle s h' d v en sa q t : standing s -> tb_doc s = Some d -> data_of (tb_heap s) d = Some (DDoc v en sa (Some q) None) ->
  dtd_ok h' q t -> settled (tb_heap s) h' -> standing (with_heap h' s) /\ has_dtd (with_heap h' s).
Proof.
  intros ((W & d0 & D0 & K0 & E0) & d1 & D1 & (N & _)) D X T (S1 & S2 & S3). rewrite D in D0, D1. injection D0 as <-. injection D1 as <-.
  assert (X' : data_of h' d = Some (DDoc v en sa (Some q) None)) by (apply S2; [exact X|discriminate]). split; [|exists d, v, en, sa, q; auto]. split.
  - split; [apply T|]. exists d. cbn [with_heap tb_heap tb_doc tb_elem]. split; [exact D|]. split; [apply S1, K0|].
    destruct E0 as [E0|(e & E0 & Ke)]; [left; exact E0|right; exists e; split; [exact E0|apply S1, Ke]].
  - exists d. split; [exact D|]. split; [apply S3; assumption|]. exists v, en, sa, (Some q). split; [exact X'|]. exists t. exact T.
Qed.
Lemma doc_get h d v en sa i x : data_of h d = Some (DDoc v en sa i x) -> getDoc d h = (Ret (v, en, sa, i, x), h).
Proof. intro D. apply data_of_some in D as (c & E & Dc). unfold getDoc. rewrite (bind_getc _ _ _ _ E). cbv beta. rewrite Dc. reflexivity. Qed.
Lemma subset_run h d v en sa q x err : data_of h d = Some (DDoc v en sa q x) -> subset (Some d) 1 err h = (Ret q, h).
Proof. intro D. unfold subset, deref. rewrite (hbind_ret _ _ _ d _ eq_refl). rewrite (hbind_ret _ _ _ _ _ (doc_get _ _ _ _ _ _ _ D)). reflexivity. Qed.
(* an event that makes one call *)
Lemma same_acts f s v e (m : HM unit) r h : tb_action f s v e = hbind m (fun _ => hret (tb_doc s, tb_elem s)) -> m (tb_heap s) = (r, h) ->
  match r with Ret _ => standing (with_heap h s) /\ has_dtd (with_heap h s) | Fail _ => True | _ => False end ->
  snd (tb_event f s v e) <> HPanic /\ (snd (tb_event f s v e) = HNil -> standing (fst (tb_event f s v e)) /\ has_dtd (fst (tb_event f s v e))).
Proof.
  intros T R P. unfold tb_event. rewrite T. unfold hbind. rewrite R. destruct r as [a|x| |]; try contradiction; cbn [hret fst snd]; (split; [discriminate|]); [intros _; exact P|discriminate].
Qed.
Lemma ignored_run {A} (m : HM A) h r h' : m h = (r, h') -> (match r with Ret _ | Fail _ => True | _ => False end) ->
  exists r2, hbind m (fun _ => hret tt) h = (r2, h') /\ match r2 with Ret _ | Fail _ => True | _ => False end.
Proof. intros R K. unfold hbind. rewrite R. destruct r; try contradiction; eexists; (split; [reflexivity|exact I]). Qed.
Definition declares (e : event) : Prop := match e with EEntityDecl _ _ _ _ _ | EElementDecl _ _ _ | EAttributeDecl _ _ _ _ _ _ => True | _ => False end.
Lemma decl_acts f s v e : standing s -> has_dtd s -> v_inSubset v = 1 -> declares e -> acts f s v e.
Proof.
  intros S (d & v0 & en & sa & q & D & X) V De.
  assert (Q : exists t, dtd_ok (tb_heap s) q t).
  { destruct S as (_ & d1 & D1 & (_ & v1 & en1 & sa1 & i1 & X1 & Q1)). rewrite D in D1. injection D1 as <-. rewrite X in X1. injection X1 as _ _ _ <-. exact Q1. }
  destruct Q as (t & Q).
  assert (G : forall k m, (m (tb_heap s) = hbind (declare q k) (fun _ => hret tt) (tb_heap s) \/ exists x h, m (tb_heap s) = (Fail x, h)) ->
    tb_action f s v e = hbind m (fun _ => hret (tb_doc s, tb_elem s)) -> acts f s v e).
  { intros k m Hm T.
    assert (P : exists r h, m (tb_heap s) = (r, h) /\ match r with Ret _ => standing (with_heap h s) /\ has_dtd (with_heap h s) | Fail _ => True | _ => False end).
    { destruct Hm as [Hm|(x & h & Hm)]; [|eexists _, h; split; [exact Hm|exact I]].
      destruct (declare_run q k _ _ Q) as (r & h' & t' & R & Kr & Q' & St). destruct (ignored_run _ _ _ _ R Kr) as (r2 & R2 & K2).
      exists r2, h'. split; [rewrite Hm; exact R2|]. destruct r2; try contradiction; [|exact I]. eapply settle; eassumption. }
    destruct P as (r & h & R & P). destruct (same_acts f s v e m r h T R P) as [A1 A2]. split; [exact A1|]. intros N. destruct (A2 N). auto. }
  destruct e as [| | | | | | | | | | | | |nm ty ex sy ct|nm ty ct|el a ty df val enm]; try contradiction De.
  - apply (G (KEntity nm ty ex sy ct) (entityDecl (tb_doc s) (v_inSubset v) nm ty ex sy ct)); [left|reflexivity].
    unfold entityDecl. rewrite D, V. rewrite (hbind_ret _ _ _ _ _ (subset_run _ _ _ _ _ _ _ _ X)). reflexivity.
  - apply (G (KElement nm ty ct) (elementDecl (tb_doc s) (v_inSubset v) nm ty ct)); [left|reflexivity].
    unfold elementDecl. rewrite D, V. rewrite (hbind_ret _ _ _ _ _ (subset_run _ _ _ _ _ _ _ _ X)). reflexivity.
  - destruct (prefix_local a) as [pf lc] eqn:Pa.
    apply (G (KAttribute el lc pf ty df val enm) (attributeDecl (tb_doc s) (v_inSubset v) el a ty df val enm)); [|reflexivity].
    unfold attributeDecl. destruct (_ && _); [right; eexists _, _; reflexivity|left]. rewrite Pa, D, V.
    rewrite (hbind_ret _ _ _ _ _ (subset_run _ _ _ _ _ _ _ _ X)). reflexivity.
Qed.
Lemma external_acts f s v n x y : standing s -> acts f s v (EExternalSubset n x y).
Proof. intros S. split; [discriminate|]. intros _. destruct s. auto. Qed.

(* the internal subset *)
Lemma similar_redoc h d c v en sa i x i' : hget h d = Some c -> dat c = DDoc v en sa i x -> similar h (hset h d (with_dat (DDoc v en sa i' x) c)).
Proof.
  intros E D. split; [reflexivity|]. intro y. rewrite hget_hset. destruct (Pos.eqb_spec y d) as [->|Hy].
  - rewrite E. split; [reflexivity|]. cbn [dat with_dat]. rewrite D. exact I.
  - destruct (hget h y); [split; [reflexivity|apply same_kind_refl]|exact I].
Qed.
Lemma internal_acts f s v n x y : standing s ->
  snd (tb_event f s v (EInternalSubset n x y)) <> HPanic /\
  (snd (tb_event f s v (EInternalSubset n x y)) = HNil -> standing (fst (tb_event f s v (EInternalSubset n x y))) /\ has_dtd (fst (tb_event f s v (EInternalSubset n x y)))).
Proof.
  intros ((W & d0 & D0 & K0 & E0) & d & D & (N & v0 & en & sa & i & X & Q)). rewrite D in D0. injection D0 as <-. set (h := tb_heap s) in *.
  assert (P1 : exists h1, (match i with Some _ => setData d (DDoc v0 en sa None None) | None => hret tt end) h = (Ret tt, h1) /\ wf h1 /\
    data_of h1 d = Some (DDoc v0 en sa None None) /\ (forall z k, kind h z = Some k -> kind h1 z = Some k) /\ no_doc h1 d).
  { destruct i as [q|].
    - apply data_of_some in X as (c & Ec & Dc). exists (hset h d (with_dat (DDoc v0 en sa None None) c)).
      pose proof (similar_redoc h d c v0 en sa (Some q) None None Ec Dc) as Sm. split.
      { unfold setData, upd. unfold hbind, getc. rewrite Ec. reflexivity. }
      split; [destruct W as (F & G & FH); exists F, G; eapply forest_similar; eassumption|].
      assert (Kd : forall z, kind (hset h d (with_dat (DDoc v0 en sa None None) c)) z = kind h z).
      { intro z. unfold kind, data_of. rewrite hget_hset. destruct (Pos.eqb_spec z d) as [->|Hz]; [|reflexivity]. rewrite Ec. cbn. rewrite Dc. reflexivity. }
      split; [unfold data_of; rewrite hget_hset_same; reflexivity|]. split; [intros z k; rewrite Kd; auto|].
      intros z Pz Kz. rewrite Kd in Kz. apply (N z); [|exact Kz]. unfold parent_of in Pz |- *. rewrite hget_hset in Pz. destruct (Pos.eqb_spec z d) as [Hz|Hz]; [|exact Pz].
      rewrite Hz, Ec. exact Pz.
    - exists h. split; [reflexivity|]. auto. }
  destruct P1 as (h1 & R1 & W1 & X1 & K1 & N1).
  pose proof X1 as X1'. apply data_of_some in X1' as (c1 & Ec1 & Dc1).
  destruct (live_children _ _ _ W1 Ec1) as (cs & Ch); [rewrite Dc1; reflexivity|]. destruct W1 as (F & G & FH).
  destruct (CreateInternalSubset_run h1 F G d v0 en sa cs n x y FH X1 Ch) as (dtd & h2 & R2 & Nd & Q2 & _ & X2 & _ & O2 & P2 & _).
  { intros z Hz. apply N1. destruct Ch as (c & _ & _ & _ & _ & Hi). apply Hi, Hz. }
  assert (Ndd : d <> dtd) by (intros ->; congruence).
  assert (K2 : forall z k, kind h1 z = Some k -> kind h2 z = Some k).
  { intros z k Kz. unfold kind in *. destruct (Pos.eq_dec z d) as [->|Hz]; [rewrite X1 in Kz; rewrite X2; exact Kz|].
    destruct (Pos.eq_dec z dtd) as [->|Hz2]; [unfold data_of in Kz; rewrite Nd in Kz; discriminate|]. destruct (O2 z Hz Hz2) as [-> _]. exact Kz. }
  apply (same_acts f s v _ (internalSubset (tb_doc s) n x y) (Ret tt) h2); [reflexivity| |].
  - unfold internalSubset. rewrite D. unfold deref. rewrite (hbind_ret _ _ _ d _ eq_refl). fold h. rewrite (hbind_ret _ _ _ _ _ (doc_get _ _ _ _ _ _ _ X)). cbv beta.
    assert (R1' : (match i with Some _ => setData d (DDoc v0 en sa None None) | None => hret tt end) h = (Ret tt, h1)) by exact R1.
    destruct i; rewrite (hbind_ret _ _ _ _ _ R1'); rewrite (hbind_ret _ _ _ _ _ R2); reflexivity.
  - split; [|exists d, v0, en, sa, dtd; auto]. split.
    + split; [apply Q2|]. exists d. cbn [with_heap tb_heap tb_doc tb_elem]. split; [exact D|]. split; [apply K2, K1, K0|].
      destruct E0 as [E0|(e & E0 & Ke)]; [left; exact E0|right; exists e; split; [exact E0|apply K2, K1, Ke]].
    + exists d. split; [exact D|]. split; [|exists v0, en, sa, (Some dtd); split; [exact X2|exists notables; exact Q2]].
      cbn [with_heap tb_heap]. intros z Pz Kz. destruct (Pos.eq_dec z dtd) as [->|Hz2]; [destruct Q2 as (_ & _ & _ & _ & (c & a1 & a2 & a3 & Ed & Dd & _)); rewrite (kind_some _ _ _ Ed), Dd in Kz; discriminate|].
      destruct (Pos.eq_dec z d) as [->|Hz].
      * rewrite P2 in Pz. apply (N1 d Pz). exact (doc_kind _ _ _ _ _ _ _ X1).
      * destruct (O2 z Hz Hz2) as [O3 O4]. rewrite O4 in Pz. apply (N1 z Pz). unfold kind in *. rewrite <- O3. exact Kz.
Qed.

(* ---- entities ---- *)
Lemma entity_read h t q k p : dtd_ok h q t -> (tget (t_ents t) k = Some p \/ tget (t_pents t) k = Some p) -> exists e, read_entity h p = Some e.
Proof.
  intros (_ & _ & _ & (_ & _ & A3 & A4) & _) X. unfold read_entity.
  destruct X as [X|X]; [destruct (A3 _ _ X) as (ty & ex & sy & ct & og & D & _)|destruct (A4 _ _ X) as (ty & ex & sy & ct & og & D & _)];
    apply data_of_some in D as (c & E & Dc); rewrite E, Dc; eexists; reflexivity.
Qed.
Lemma entity_query s v n : standing s -> fst (tb_getEntity s v n) = s /\ snd (tb_getEntity s v n) <> AnswerPanic.
Proof.
  intros (_ & d & D & (_ & v0 & en & sa & i & X & Q)). unfold tb_getEntity. rewrite D. unfold GetEntity, deref.
  rewrite (hbind_ret _ _ _ d _ eq_refl), (hbind_ret _ _ _ _ _ (doc_get _ _ _ _ _ _ _ X)). destruct i as [q|]; [|split; [reflexivity|discriminate]].
  destruct Q as (t & Q). destruct (lookups _ _ _ Q) as (_ & _ & L & _). rewrite L. destruct (tget (t_ents t) n) as [p|] eqn:T; [|split; [reflexivity|discriminate]].
  destruct (entity_read _ _ _ n p Q (or_introl T)) as (e & ->). split; [reflexivity|discriminate].
Qed.
Lemma parameter_query s v n : standing s -> fst (tb_getPEntity s v n) = s /\ snd (tb_getPEntity s v n) <> AnswerPanic.
Proof.
  intros (_ & d & D & (_ & v0 & en & sa & i & X & Q)). unfold tb_getPEntity. rewrite D. unfold GetParameterEntity, deref.
  rewrite (hbind_ret _ _ _ d _ eq_refl), (hbind_ret _ _ _ _ _ (doc_get _ _ _ _ _ _ _ X)). destruct i as [q|]; [|split; [reflexivity|discriminate]].
  destruct Q as (t & Q). destruct (lookups _ _ _ Q) as (_ & _ & _ & L & _). rewrite L. destruct (tget (t_pents t) n) as [p|] eqn:T; [|split; [reflexivity|discriminate]].
  destruct (entity_read _ _ _ n p Q (or_intror T)) as (e & ->). split; [reflexivity|discriminate].
Qed.
Lemma orig_standing s e lit : standing s -> standing (tb_setOrig s e lit) /\ (has_dtd s -> has_dtd (tb_setOrig s e lit)).
Proof.
  intros S. unfold tb_setOrig. destruct e as [x|]; [|auto]. destruct (e_id x) as [|p|]; auto. destruct (hget (tb_heap s) p) as [c|] eqn:Ec; auto.
  destruct (dat c) as [| | | | | | |nm t a b cn og| | |] eqn:Dc; auto.
  set (h := tb_heap s) in *. set (h' := hset h p (with_dat (DEntity nm t a b cn lit) c)).
  assert (Cell : forall z, hget h' z = if Pos.eqb z p then Some (with_dat (DEntity nm t a b cn lit) c) else hget h z) by (intro z; apply hget_hset).
  assert (Sm : similar h h').
  { split; [reflexivity|]. intro y. rewrite Cell. destruct (Pos.eqb_spec y p) as [->|Hy].
    - rewrite Ec. split; [reflexivity|]. cbn [dat with_dat]. rewrite Dc. exact I.
    - destruct (hget h y); [split; [reflexivity|apply same_kind_refl]|exact I]. }
  assert (W' : wf h') by (destruct S as ((( F & G & FH) & _) & _); exists F, G; eapply forest_similar; eassumption).
  assert (Kd : forall z, kind h' z = kind h z).
  { intro z. unfold kind, data_of. rewrite Cell. destruct (Pos.eqb_spec z p) as [->|Hz]; [|reflexivity]. rewrite Ec. cbn. rewrite Dc. reflexivity. }
  assert (Pd : forall z, parent_of h' z = parent_of h z).
  { intro z. unfold parent_of. rewrite Cell. destruct (Pos.eqb_spec z p) as [->|Hz]; [|reflexivity]. rewrite Ec. reflexivity. }
  assert (Dd : forall z y, data_of h z = Some y -> typeOf y <> EntityNode -> data_of h' z = Some y).
  { intros z y Y N. unfold data_of in *. rewrite Cell. destruct (Pos.eqb_spec z p) as [->|Hz]; [|exact Y]. rewrite Ec in Y. injection Y as <-. rewrite Dc in N. contradiction N. reflexivity. }
  assert (De : forall z k0 ty ex sy ct og0, data_of h z = Some (DEntity k0 ty ex sy ct og0) -> exists og1, data_of h' z = Some (DEntity k0 ty ex sy ct og1)).
  { intros z k0 ty ex sy ct og0 Y. unfold data_of in *. rewrite Cell. destruct (Pos.eqb_spec z p) as [->|Hz]; [|eauto]. rewrite Ec in Y. cbn in Y. rewrite Dc in Y. injection Y as <- <- <- <- <- <-. cbn. eauto. }
  assert (No : forall z, no_doc h z -> no_doc h' z) by (intros z N w Pw Kw; rewrite Pd in Pw; rewrite Kd in Kw; exact (N w Pw Kw)).
  assert (Dk : forall q tt0, dtd_ok h q tt0 -> dtd_ok h' q tt0).
  { intros q t0 (_ & _ & ND & (A1 & A2 & A3 & A4) & (cq & n & e & sy & Eq & Dq & Oq)).
    assert (Eq' : hget h' q = Some cq) by (rewrite Cell; destruct (Pos.eqb_spec q p) as [->|Hz]; [congruence|exact Eq]).
    refine (conj W' (conj (dtd_free _ _ _ _ _ _ _ W' Eq' Dq) (conj (No _ ND) (conj (conj _ (conj _ (conj _ _))) _)))).
    - intros k z Ez. destruct (A1 k z Ez) as (n0 & pf & ty & ct & Y & Z). exists n0, pf, ty, ct. split; [apply Dd; [exact Y|discriminate]|exact Z].
    - intros k z Ez. destruct (A2 k z Ez) as (el & nm0 & pf & ty & df & v & en & Y & Z). exists el, nm0, pf, ty, df, v, en. split; [apply Dd; [exact Y|discriminate]|exact Z].
    - intros k z Ez. destruct (A3 k z Ez) as (ty & ex & sy0 & ct & og0 & Y & Z). destruct (De _ _ _ _ _ _ _ Y) as (og1 & Y'). exists ty, ex, sy0, ct, og1. auto.
    - intros k z Ez. destruct (A4 k z Ez) as (ty & ex & sy0 & ct & og0 & Y & Z). destruct (De _ _ _ _ _ _ _ Y) as (og1 & Y'). exists ty, ex, sy0, ct, og1. auto.
    - exists cq, n, e, sy. split; [exact Eq'|]. split; [exact Dq|]. destruct (owner cq) as [d0|]; [|exact I].
      destruct Oq as (v & en & sa & i & x0 & Ed & Y). exists v, en, sa, i, x0. split; [apply Dd; [exact Ed|discriminate]|exact Y]. }
  split.
  - destruct S as ((W & d0 & D0 & K0 & E0) & d & D & (N & v & en & sa & i & X & Q)). split.
    + split; [exact W'|]. exists d0. cbn [with_heap tb_heap tb_doc tb_elem]. split; [exact D0|]. rewrite Kd. split; [exact K0|].
      destruct E0 as [E0|(e & E0 & Ke)]; [left; exact E0|right; exists e; rewrite Kd; auto].
    + exists d. split; [exact D|]. split; [apply No, N|]. exists v, en, sa, i. split; [apply Dd; [exact X|discriminate]|].
      destruct i as [q|]; [|exact I]. destruct Q as (t0 & Q). exists t0. apply Dk, Q.
  - intros (d & v & en & sa & q & D & X). exists d, v, en, sa, q. split; [exact D|apply Dd; [exact X|discriminate]].
Qed.

(* ---- the attributes for default values ---- *)
Lemma default_standing f s l p rs : standing s -> Forall (fun r => valid_rune r = true) rs -> (List.length (utf8 (amp_escaped rs)) < f)%nat ->
  (snd (tb_createAttr f s l p (utf8 (amp_escaped rs))) <> Pan) /\ standing (fst (tb_createAttr f s l p (utf8 (amp_escaped rs)))) /\
  (has_dtd s -> has_dtd (fst (tb_createAttr f s l p (utf8 (amp_escaped rs))))).
Proof.
  intros S V L. pose proof S as ((W & d0 & D0 & K0 & E0) & d & D & K). set (h := tb_heap s) in *.
  destruct (CreateAttribute_run f h (tb_doc s) l (utf8 (amp_escaped rs)) rs) as (a & ks & h' & R & Md).
  - exact (wf_ok _ W).
  - change amp_escaped with ampesc in *. apply runes_amp. apply amp_valid, V.
  - split; [intro X; destruct rs; [reflexivity|]|intros ->; reflexivity]. exfalso. change amp_escaped with ampesc in *. apply (f_equal (@List.length Z)) in X. pose proof (ampesc_length (z :: rs)) as Y. cbn [List.length] in *. lia.
  - change amp_escaped with ampesc in *. pose proof (ampesc_length rs). lia.
  - unfold tb_createAttr. fold h. rewrite R. cbn [fst snd]. split; [discriminate|].
    assert (Od : older h h').
    { intros z c E. rewrite <- E. eapply made_old; [exact Md|]. exact (wf_ok _ W _ _ E). }
    assert (W' : wf h') by (destruct W as (F & G & FH); exists F; eexists; eapply forest_made; eassumption).
    split; [split|].
    + split; [exact W'|]. exists d0. cbn [with_heap tb_heap tb_doc tb_elem]. split; [exact D0|].
      assert (Kk : forall z k, kind h z = Some k -> kind h' z = Some k).
      { intros z k. unfold kind. destruct (data_of h z) eqn:Dz; [|discriminate]. rewrite (older_data _ _ _ _ Od Dz). auto. }
      split; [apply Kk, K0|]. destruct E0 as [E0|(e & E0 & Ke)]; [left; exact E0|right; exists e; auto].
    + exists d. split; [exact D|]. exact (older_decl h h' d W W' Od K).
    + intros (d1 & v & en & sa & q & D1 & X). exists d1, v, en, sa, q. split; [exact D1|]. eapply older_data; eassumption.
Qed.

(* ---- the start of the document ---- *)
Lemma standing_begin f s v : wf (tb_heap s) -> tb_elem s = None ->
  snd (tb_event f s v EStartDocument) = HNil /\ standing (fst (tb_event f s v EStartDocument)).
Proof.
  intros W Ee. destruct (tree_begin f s v W Ee) as [A B]. split; [exact A|]. split; [exact B|].
  unfold tb_event, tb_action, NewDocument, alloc. rewrite Ee. cbn [fst snd hbind hret]. cbv beta iota.
  destruct (new_node (tb_heap s) None (DDoc (v_version v) (v_encoding v) (v_standalone v) None None) W I) as (W1 & X1 & N1 & E1).
  exists (nxt (tb_heap s)). split; [reflexivity|]. cbn [tb_heap fst]. change (decl_ok (with_new (tb_heap s) {| lk := nolinks; owner := None; dat := DDoc (v_version v) (v_encoding v) (v_standalone v) None None |}) (nxt (tb_heap s))).
  split.
  - intros x P _. destruct (live_children _ _ _ W1 E1 eq_refl) as (cs & c & Ec & Pc & _ & _ & Ic). rewrite E1 in Ec. injection Ec as <-. cbn in Pc.
    inversion Pc; subst. apply Ic in P. destruct P.
  - exists (v_version v), (v_encoding v), (v_standalone v), None. split; [|exact I]. unfold data_of. rewrite E1. reflexivity.
Qed.

(* Histories of declarations in a DTD, mixed with other tree-building calls. *)
From Coq Require Import FMapPositive Permutation.
From Verif Require Import Base Utf8 Utf8Proofs Escape Scan Heap TreeShape TreeOps Forest ForestOps ForestAdd ForestAttr History TreeCalls TreeRead TreeReplace DtdProofs.

(* ---- what the tree-building calls keep ---- *)
Definition stable (d : data) : bool := negb (no_kids_data d) && match d with DElem _ _ _ _ => false | _ => true end.
Definition keeps (h h' : heap) : Prop := forall x,
  match hget h x, hget h' x with
  | Some c, Some c' => owner c' = owner c /\ typeOf (dat c') = typeOf (dat c) /\ (stable (dat c) = true -> dat c' = dat c) /\
                       (typeOf (dat c) = DocumentNode -> l_par (lk c') = l_par (lk c))
  | Some _, None => False
  | None, Some c' => typeOf (dat c') = DocumentNode -> l_par (lk c') = None
  | None, None => True
  end.
Lemma keeps_cell h h' x : hget h' x = hget h x ->
  match hget h x, hget h' x with
  | Some c, Some c' => owner c' = owner c /\ typeOf (dat c') = typeOf (dat c) /\ (stable (dat c) = true -> dat c' = dat c) /\
                       (typeOf (dat c) = DocumentNode -> l_par (lk c') = l_par (lk c))
  | Some _, None => False
  | None, Some c' => typeOf (dat c') = DocumentNode -> l_par (lk c') = None
  | None, None => True
  end.
Proof. intros ->. destruct (hget h x); auto. Qed.
Lemma keeps_refl h : keeps h h.
Proof. intro x. apply keeps_cell. reflexivity. Qed.
Lemma keeps_trans h1 h2 h3 : keeps h1 h2 -> keeps h2 h3 -> keeps h1 h3.
Proof.
  intros A B x. specialize (A x). specialize (B x). destruct (hget h1 x) as [c1|], (hget h2 x) as [c2|], (hget h3 x) as [c3|]; try tauto.
  - destruct A as (A1 & A2 & A3 & A4). destruct B as (B1 & B2 & B3 & B4). refine (conj _ (conj _ (conj _ _))); try congruence.
    + intro S. specialize (A3 S). rewrite A3 in *. apply B3, S.
    + intro S. rewrite B4 by congruence. apply A4, S.
  - intro K. destruct B as (B1 & B2 & _ & B4). rewrite B4 by congruence. apply A. congruence.
Qed.
Lemma keeps_redata h p d h' c : redata h p d h' -> hget h p = Some c -> stable (dat c) = false -> typeOf d = typeOf (dat c) ->
  typeOf d <> DocumentNode -> keeps h h'.
Proof.
  intros [_ R] E S K N x. destruct (Pos.eq_dec x p) as [->|Hx].
  - rewrite R, Pos.eqb_refl, E. cbn. refine (conj eq_refl (conj K (conj _ _))); congruence.
  - apply keeps_cell. rewrite R. apply Pos.eqb_neq in Hx. rewrite Hx. reflexivity.
Qed.
Lemma keeps_links h h' x f : hget h' x = option_map (with_lk f) (hget h x) ->
  (forall c, hget h x = Some c -> typeOf (dat c) = DocumentNode -> l_par (f (lk c)) = l_par (lk c)) ->
  match hget h x, hget h' x with
  | Some c, Some c' => owner c' = owner c /\ typeOf (dat c') = typeOf (dat c) /\ (stable (dat c) = true -> dat c' = dat c) /\
                       (typeOf (dat c) = DocumentNode -> l_par (lk c') = l_par (lk c))
  | Some _, None => False
  | None, Some c' => typeOf (dat c') = DocumentNode -> l_par (lk c') = None
  | None, None => True
  end.
Proof. intros -> H. destruct (hget h x) as [c|]; cbn; auto. Qed.
Lemma keeps_grown h y q h' cq : grown h y q h' -> hget h q = Some cq -> typeOf (dat cq) <> DocumentNode -> keeps h h'.
Proof.
  intros (cy & Ey & G) Eq N x. destruct (l_last (lk cy)) as [z|]; destruct G as [_ G]; specialize (G x).
  - destruct (Pos.eqb x q) eqn:H1; [apply Pos.eqb_eq in H1; subst x; eapply keeps_links; [exact G|congruence]|].
    destruct (Pos.eqb x z) eqn:H2; [apply Pos.eqb_eq in H2; subst x; eapply keeps_links; [exact G|reflexivity]|].
    destruct (optr_eqb (Some x) (Some y)); [eapply keeps_links; [exact G|reflexivity]|apply keeps_cell, G].
  - destruct (Pos.eqb x q) eqn:H1; [apply Pos.eqb_eq in H1; subst x; eapply keeps_links; [exact G|congruence]|].
    destruct (Pos.eqb x y) eqn:H2; [apply Pos.eqb_eq in H2; subst x; eapply keeps_links; [exact G|reflexivity]|apply keeps_cell, G].
Qed.
Lemma keeps_appended h z q h' cq : appended h None z q h' -> hget h q = Some cq -> typeOf (dat cq) <> DocumentNode -> keeps h h'.
Proof.
  intros [_ G] Eq N x. specialize (G x).
  destruct (Pos.eqb x q) eqn:H1; [apply Pos.eqb_eq in H1; subst x; eapply keeps_links; [exact G|congruence]|].
  destruct (Pos.eqb x z) eqn:H2; [apply Pos.eqb_eq in H2; subst x; eapply keeps_links; [exact G|reflexivity]|apply keeps_cell, G].
Qed.
Lemma keeps_new h c : hok h -> l_par (lk c) = None -> keeps h (with_new h c).
Proof.
  intros K P x. destruct (Pos.eq_dec x (nxt h)) as [->|Hx].
  - rewrite hget_new, Pos.eqb_refl. destruct (hget h (nxt h)) as [c0|] eqn:E; [apply K in E; lia|]. auto.
  - apply keeps_cell. rewrite hget_new. apply Pos.eqb_neq in Hx. rewrite Hx. reflexivity.
Qed.
Lemma keeps_child h p q r h' cq : child_effect h p q r h' -> hget h q = Some cq -> typeOf (dat cq) <> DocumentNode -> keeps h h'.
Proof.
  intros Ef Eq N.
  destruct Ef as [c1 c2 s t h' E1 E2 D1 D2 Rd|c1 c2 s t h' E1 E2 D1 D2 Rd|c1 c2 e E1 E2 D1 D2|c1 c2 cl l s t h' E1 D0 L1 E3 E2 D1 D2 Rd|c1 cl l e E1 D0 L1 E3 D1|c1 c2 h' E1 E2 D0 NT Gr].
  - eapply keeps_redata; [exact Rd|exact E1|..]; rewrite ?D1; try reflexivity; discriminate.
  - eapply keeps_redata; [exact Rd|exact E1|..]; rewrite ?D1; try reflexivity; discriminate.
  - apply keeps_refl.
  - eapply keeps_redata; [exact Rd|exact E3|..]; rewrite ?D1; try reflexivity; discriminate.
  - apply keeps_refl.
  - eapply keeps_grown; eassumption.
Qed.
Lemma keeps_sib h p q r h' cq : sib_effect h p q r h' -> hget h q = Some cq -> typeOf (dat cq) <> DocumentNode -> keeps h h'.
Proof.
  intros Ef Eq N. destruct Ef as [c1 c2 s t h' E1 E2 D1 D2 Rd|c1 e E1 D1|c1 c2 h' E1 E2 D0 NT (cp & Ep & J)].
  - eapply keeps_redata; [exact Rd|exact E1|..]; rewrite ?D1; try reflexivity; discriminate.
  - apply keeps_refl.
  - destruct (l_par (lk cp)) as [y|]; [eapply keeps_grown; eassumption|]. destruct J as (g & z & _ & A). eapply keeps_appended; eassumption.
Qed.
Lemma keeps_made h o name text a ks h' : hok h -> made h o name text a ks h' -> keeps h h'.
Proof.
  intros K M x. destruct (hget h x) as [c|] eqn:E.
  - pose proof (K _ _ E) as Hx. rewrite (made_old _ _ _ _ _ _ _ x M Hx), E. auto.
  - destruct M as [-> M]. destruct text as [|z text]; destruct M as (_ & _ & M); rewrite M.
    + destruct (Pos.eqb x (nxt h)); [discriminate|]. rewrite E. exact I.
    + destruct (Pos.eqb x (nxt h)); [discriminate|]. destruct (Pos.eqb x (Pos.succ (nxt h))); [discriminate|]. rewrite E. exact I.
Qed.
Lemma keeps_attr_added h e atts a h' : attr_added h e atts a h' -> keeps h h'.
Proof.
  intros [_ A] x. destruct (lasto atts) as [l|].
  - specialize (A x). destruct (Pos.eqb x a) eqn:H1; [apply Pos.eqb_eq in H1; subst x; eapply keeps_links; [exact A|reflexivity]|].
    destruct (Pos.eqb x l) eqn:H2; [apply Pos.eqb_eq in H2; subst x; eapply keeps_links; [exact A|reflexivity]|apply keeps_cell, A].
  - destruct A as (c & nm & ns & defs & Ec & Dc & A). specialize (A x). destruct (Pos.eqb x e) eqn:H1; [|apply keeps_cell, A].
    apply Pos.eqb_eq in H1; subst x. rewrite A, Ec. cbn. rewrite Dc. cbn. repeat split; try discriminate.
Qed.

(* no Document is attached *)
Definition no_doc_op (h : heap) (o : op) : Prop :=
  match o with OChild _ q | OSibling _ q => kind h q <> Some DocumentNode | _ => True end.
Lemma call_keeps h F G o r h' : forest h F G -> allowed h o -> no_doc_op h o -> call o h = (r, h') ->
  keeps h h' /\ exists F' G', forest h' F' G'.
Proof.
  intros FH A N C. destruct (call_forest _ _ _ _ FH A) as (r' & h2 & C' & _ & _ & FG). rewrite C in C'. injection C' as <- <-. split; [|exact FG].
  assert (Q : forall q, kind h q <> Some DocumentNode -> loose h q -> exists cq, hget h q = Some cq /\ typeOf (dat cq) <> DocumentNode).
  { intros q Kq (cq & Eq & _). exists cq. split; [exact Eq|]. rewrite (kind_some _ _ _ Eq) in Kq. congruence. }
  destruct o as [o d|p q|p q|p b|e name value]; cbn [allowed call no_doc_op] in *.
  - injection C as <- <-. apply keeps_new; [exact (f_ok _ _ _ FH)|reflexivity].
  - destruct (Q q N (proj1 (proj2 (proj2 A)))) as (cq & Eq & Nq). destruct (AddChild_forest _ _ _ _ _ FH A) as (r' & h2 & R & Ef & _).
    rewrite C in R. injection R as <- <-. eapply keeps_child; eassumption.
  - destruct (Q q N (proj1 (proj2 (proj2 A)))) as (cq & Eq & Nq). destruct (AddSibling_forest _ _ _ _ _ FH A) as (r' & h2 & R & Ef & _).
    rewrite C in R. injection R as <- <-. eapply keeps_sib; eassumption.
  - destruct A as [Hl NA]. destruct (AddContent_forest _ _ _ _ b FH Hl NA) as (r' & h2 & R & Ef & _). rewrite C in R. injection R as <- <-.
    destruct Ef as [cp s h' E1 D1 Rd|cp s h' E1 D1 Rd|cp r h' E1 Nk Ef].
    + eapply keeps_redata; [exact Rd|exact E1|..]; rewrite ?D1; try reflexivity; discriminate.
    + eapply keeps_redata; [exact Rd|exact E1|..]; rewrite ?D1; try reflexivity; discriminate.
    + eapply keeps_trans; [|eapply keeps_child; [exact Ef|rewrite hget_new, Pos.eqb_refl; reflexivity|discriminate]].
      apply keeps_new; [exact (f_ok _ _ _ FH)|reflexivity].
  - destruct A as ((c & Ec & Tc) & Hv & text & Dt).
    destruct (SetAttribute_forest (S (List.length value)) h F G e c name (utf8 value) text FH Ec Tc) as (r' & h2 & R & Ef & X).
    + rewrite runes_of_utf8 by exact Hv. exact Dt.
    + rewrite utf8_nil. apply decodes_nil, Dt.
    + apply decodes_length in Dt. lia.
    + rewrite C in R. injection R as <- <-. destruct Ef as [o A k par pv nx a ks h1 h' L M Ad _|o A k par pv nx a ks x h' L M _ _].
      * eapply keeps_trans; [eapply keeps_made; [exact (f_ok _ _ _ FH)|exact M]|eapply keeps_attr_added, Ad].
      * eapply keeps_made; [exact (f_ok _ _ _ FH)|exact M].
Qed.

Lemma node_free h F G x : forest h F G -> In x (fnodes F) -> ~ in_attr h x.
Proof.
  intros FH Hx (c & E & H). destruct (forest_sub _ _ _ _ FH Hx) as (a & k & par & pv & nx & L & _).
  destruct H as [H|(y & d & P & Ed & Ad)].
  - rewrite (node_not_attr _ _ _ _ _ _ _ L (or_introl eq_refl) E) in H. discriminate.
  - destruct (forest_parent _ _ _ _ _ _ FH Hx E P) as (a' & k' & par' & pv' & nx' & L' & _).
    rewrite (node_not_attr _ _ _ _ _ _ _ L' (or_introl eq_refl) Ed) in Ad. discriminate.
Qed.
Lemma keeps_data h h' x d : keeps h h' -> data_of h x = Some d -> stable d = true -> data_of h' x = Some d.
Proof.
  intros K E S. apply data_of_some in E as (c & E & <-). specialize (K x). rewrite E in K. unfold data_of.
  destruct (hget h' x) as [c'|]; [|contradiction]. destruct K as (_ & _ & K & _). cbn. rewrite K by exact S. reflexivity.
Qed.
Lemma tabs_keeps h h' t : keeps h h' -> tabs_ok h t -> tabs_ok h' t.
Proof.
  intros K (A1 & A2 & A3 & A4). refine (conj _ (conj _ (conj _ _))); intros k p Ep.
  - destruct (A1 k p Ep) as (nm & pf & ty & ct & X & Y). exists nm, pf, ty, ct. split; [eapply keeps_data; [exact K|exact X|reflexivity]|exact Y].
  - destruct (A2 k p Ep) as (el & nm & pf & ty & df & v & en & X & Y). exists el, nm, pf, ty, df, v, en. split; [eapply keeps_data; [exact K|exact X|reflexivity]|exact Y].
  - destruct (A3 k p Ep) as (ty & ex & sy & ct & og & X & Y). exists ty, ex, sy, ct, og. split; [eapply keeps_data; [exact K|exact X|reflexivity]|exact Y].
  - destruct (A4 k p Ep) as (ty & ex & sy & ct & og & X & Y). exists ty, ex, sy, ct, og. split; [eapply keeps_data; [exact K|exact X|reflexivity]|exact Y].
Qed.
Lemma dtd_keeps h h' dtd t : keeps h h' -> (exists F G, forest h' F G) -> dtd_ok h dtd t -> dtd_ok h' dtd t.
Proof.
  intros K (F' & G' & FH') (_ & NA & ND & T & (c & n & e & s & Ec & Dc & Oc)).
  assert (Dd : data_of h dtd = Some (DDtd n e s t)) by (unfold data_of; rewrite Ec; cbn; congruence).
  pose proof (keeps_data _ _ _ _ K Dd eq_refl) as Dd'. apply data_of_some in Dd' as (c' & Ec' & Dc').
  refine (conj _ (conj _ (conj _ (conj (tabs_keeps _ _ _ K T) _)))); [eauto|..].
  - assert (Hf : In dtd (fnodes F')).
    { destruct (forest_live _ _ _ _ _ FH' Ec') as [X|[[X _]|(a & ca & ss & _ & _ & _ & X & _)]]; [exact X|rewrite Dc' in X; discriminate..]. }
    eapply node_free; eassumption.
  - intros x Px Kx. unfold parent_of in Px. destruct (hget h' x) as [cx|] eqn:Ex; [|discriminate].
    rewrite (kind_some _ _ _ Ex) in Kx. injection Kx as Kx. specialize (K x). rewrite Ex in K. destruct (hget h x) as [c0|] eqn:E0.
    + destruct K as (_ & K2 & _ & K4). apply (ND x); [unfold parent_of; rewrite E0; rewrite <- K4 by congruence; exact Px|].
      rewrite (kind_some _ _ _ E0). congruence.
    + rewrite K in Px by exact Kx. discriminate.
  - exists c', n, e, s. refine (conj Ec' (conj Dc' _)). pose proof (K dtd) as Kd. rewrite Ec, Ec' in Kd. destruct Kd as (-> & _).
    destruct (owner c) as [d|]; [|exact I]. destruct Oc as (v & en & sa & i & x & Ed & Y). exists v, en, sa, i, x. split; [|exact Y].
    eapply keeps_data; [exact K|exact Ed|reflexivity].
Qed.

(* ---- declarations ---- *)
Inductive decl :=
| KEntity (name : str) (typ : Z) (pub sys content : str)
| KElement (name : str) (typ : Z) (content : option econt)
| KAttribute (elem name prefix : str) (atype def : Z) (value : str) (enum : list str).
Definition declare (dtd : ptr) (k : decl) : HM ptr :=
  match k with
  | KEntity name typ pub sys content => AddEntity dtd name typ pub sys content
  | KElement name typ content => AddElementDecl dtd name typ content
  | KAttribute elem name prefix atype def value enum => addAttributeDecl (Some dtd) elem name prefix atype def value enum
  end.
(* a step of a history: a declaration in dtd or another tree-building call *)
Inductive step (dtd : ptr) (h : heap) : decl + op -> heap -> Prop :=
| st_decl k r h' : declare dtd k h = (r, h') -> step dtd h (inl k) h'
| st_call o r h' : allowed h o -> no_doc_op h o -> call o h = (r, h') -> step dtd h (inr o) h'.
Inductive steps (dtd : ptr) : heap -> list (decl + op) -> heap -> Prop :=
| steps_nil h : steps dtd h [] h
| steps_cons h x h1 l h2 : step dtd h x h1 -> steps dtd h1 l h2 -> steps dtd h (x :: l) h2.
(* ---- CreateInternalSubset ---- *)
Lemma is_attr_kind d d' : same_kind d d' -> is_attr d' = is_attr d.
Proof. destruct d, d'; cbn; intros; try contradiction; reflexivity. Qed.
Lemma in_attr_similar h h' x : similar h h' -> in_attr h' x -> in_attr h x.
Proof.
  intros S (c & E & H). destruct (similar_back _ _ _ _ S E) as (c0 & E0 & L0 & K0). exists c0. split; [exact E0|].
  rewrite (is_attr_kind _ _ K0) in H. rewrite L0 in H. destruct H as [H|(q & d & P & Ed & Ad)]; [left; exact H|]. right.
  destruct (similar_back _ _ _ _ S Ed) as (d0 & Ed0 & _ & Kd0). exists q, d0. rewrite (is_attr_kind _ _ Kd0) in Ad. auto.
Qed.
Lemma ancestor_similar h h' q p : similar h h' -> ancestor h' q p -> ancestor h q p.
Proof.
  intros S A. induction A as [|p c r E P A IH]; [constructor|]. destruct (similar_back _ _ _ _ S E) as (c0 & E0 & L0 & _).
  econstructor; [exact E0|rewrite <- L0; exact P|exact IH].
Qed.
Lemma attachable_similar h h' p q : similar h h' -> attachable h p q -> attachable h' p q.
Proof.
  intros S ((cp & Ep) & NA & (cq & Eq & Aq & Pq & Vq & Nq) & NAn). destruct (similar_get _ _ _ _ S Ep) as (cp' & Ep' & _).
  destruct (similar_get _ _ _ _ S Eq) as (cq' & Eq' & Lq & Kq). refine (conj _ (conj _ (conj _ _))).
  - exists cp'. exact Ep'.
  - intro X. apply NA. eapply in_attr_similar; eassumption.
  - exists cq'. rewrite Lq, (is_attr_kind _ _ Kq). auto.
  - intro X. apply NAn. eapply ancestor_similar; eassumption.
Qed.
Lemma cells_similar h h' : nxt h' = nxt h -> same_cells h h' -> similar h h'.
Proof. intros N C. split; [exact N|]. intro x. rewrite (C x). destruct (hget h x); [split; [reflexivity|apply same_kind_refl]|exact I]. Qed.
Lemma grown_nxt h y q h' : grown h y q h' -> nxt h' = nxt h.
Proof. intros (c & _ & G). destruct (l_last (lk c)); apply G. Qed.
Lemma dtd_node h F G x n e s t : forest h F G -> data_of h x = Some (DDtd n e s t) -> In x (fnodes F).
Proof.
  intros FH D. apply data_of_some in D as (c & E & D).
  destruct (forest_live _ _ _ _ _ FH E) as [X|[[X _]|(a & ca & ss & _ & _ & _ & X & _)]]; [exact X|rewrite D in X; discriminate..].
Qed.

Lemma CreateInternalSubset_run h F G d v en sa cs name ext sys :
  forest h F G -> data_of h d = Some (DDoc v en sa None None) -> children h d cs -> (forall x, In x cs -> kind h x <> Some DocumentNode) ->
  exists dtd h', CreateInternalSubset d name ext sys h = (Ret dtd, h') /\ hget h dtd = None /\ dtd_ok h' dtd notables /\
    data_of h' dtd = Some (DDtd name ext sys notables) /\ data_of h' d = Some (DDoc v en sa (Some dtd) None) /\ children h' d (cs ++ [dtd]) /\
    (forall x, x <> d -> x <> dtd -> data_of h' x = data_of h x /\ parent_of h' x = parent_of h x) /\
    parent_of h' d = parent_of h d /\ option_map owner (hget h' dtd) = Some (Some d).
Proof.
  intros FH Dd Ch Nk. pose proof Dd as Dd0. apply data_of_some in Dd as (c & Ec & Dc). pose proof (f_ok _ _ _ FH) as K.
  assert (Hn : hget h (nxt h) = None) by (destruct (hget h (nxt h)) as [c0|] eqn:E; [apply K in E; lia|reflexivity]).
  set (dtd := nxt h). assert (Hd : d <> dtd) by (intro X; rewrite X in Ec; unfold dtd in Ec; congruence).
  assert (NA : ~ in_attr h d).
  { destruct (forest_live _ _ _ _ _ FH Ec) as [X|[[X _]|(a & ca & ss & _ & _ & _ & X & _)]]; [eapply node_free; eassumption|rewrite Dc in X; discriminate..]. }
  set (cell0 := {| lk := nolinks; owner := Some d; dat := DDtd name ext sys notables |}).
  set (h1 := with_new h cell0). pose proof (forest_new _ _ _ (Some d) (DDtd name ext sys notables) FH I) as F1. fold cell0 in F1. fold h1 in F1.
  assert (Ld : live h d) by (exists c; exact Ec).
  pose proof (attach_new _ _ _ (Some d) (DDtd name ext sys notables) d FH I Ld NA) as A1. fold cell0 in A1. fold h1 in A1. fold dtd in A1.
  assert (E1d : hget h1 d = Some c) by (unfold h1; eapply new_dtd; eassumption).
  assert (E1q : hget h1 dtd = Some cell0) by (unfold h1; rewrite hget_new, Pos.eqb_refl; reflexivity).
  destruct (redata_run h1 d c (DDoc v en sa (Some dtd) None) E1d) as (h2 & R2 & Rd).
  assert (S2 : similar h1 h2) by (eapply similar_redata; [exact E1d| |exact Rd]; rewrite Dc; exact I).
  pose proof (forest_similar _ _ _ _ S2 F1) as F2. pose proof (attachable_similar _ _ _ _ S2 A1) as A2.
  destruct Rd as [N2 Rd].
  assert (E2d : hget h2 d = Some (with_dat (DDoc v en sa (Some dtd) None) c)) by (rewrite Rd, Pos.eqb_refl, E1d; reflexivity).
  assert (E2q : hget h2 dtd = Some cell0) by (rewrite Rd; destruct (Pos.eqb_spec dtd d) as [X|]; [congruence|exact E1q]).
  assert (O2 : forall x, x <> d -> x <> dtd -> hget h2 x = hget h x).
  { intros x X1 X2. rewrite Rd. destruct (Pos.eqb_spec x d); [contradiction|]. unfold h1. rewrite hget_new. destruct (Pos.eqb_spec x (nxt h)); [contradiction|reflexivity]. }
  assert (L2 : forall x cx, hget h x = Some cx -> exists c', hget h2 x = Some c' /\ lk c' = lk cx).
  { intros x cx Ex. destruct (Pos.eq_dec x d) as [->|X1]; [rewrite E2d; eexists; split; [reflexivity|cbn; congruence]|].
    rewrite O2; [eauto|exact X1|intros ->; unfold dtd in Ex; congruence]. }
  pose proof Ch as (c' & E' & Pa & _ & _ & Par). rewrite Ec in E'. injection E' as <-.
  assert (Ch2 : children h2 d cs).
  { eapply children_by_path; [eapply forest_consistent, F2|exact E2d|reflexivity|]. cbn [lk with_dat].
    eapply path_same; [exact Pa|]. intros x cx _ Ex. destruct (L2 _ _ Ex) as (c2 & X & Y). exists c2. rewrite Y. auto. }
  destruct (sd_append h2 d dtd cs _ _ _ _ F2 A2 Ch2 E2d E2q) as (h' & Rn & Gr); [reflexivity|discriminate| |].
  { intros x Hx. apply (children_in _ _ _ _ Ch) in Hx as Px. assert (X : hget h2 x = hget h x); [apply O2|specialize (Nk x Hx); unfold kind, data_of in *; rewrite X; exact Nk].
    - intros ->. revert Hx. eapply sd_d; eassumption.
    - intros ->. unfold parent_of in Px. unfold dtd in Px. rewrite Hn in Px. discriminate. }
  exists dtd, h'. split.
  { unfold CreateInternalSubset. erewrite hbind_ret; [|eapply getDoc_run; exact Dd0]. cbv beta iota.
    erewrite hbind_ret; [|apply alloc_run]. fold cell0. fold (with_new h cell0). fold h1. fold dtd.
    rewrite (hbind_ret _ _ _ _ _ R2). unfold setPar. rewrite (bind_upd _ _ _ _ _ E2q). rewrite (hbind_ret _ _ _ _ _ Rn). reflexivity. }
  split; [exact Hn|].
  destruct (AddChild_forest _ _ _ _ _ F2 A2) as (o & h3 & Rn3 & Ef & F' & FH').
  assert (G3 : grown h2 d dtd h3).
  { destruct Ef as [c1 c2 s t h3 E1 E2 D1 D2 Rd'|c1 c2 s t h3 E1 E2 D1 D2 Rd'|c1 c2 e E1 E2 D1 D2|c1 c2 cl l s t h3 E1 D0 L1 E3 E2 D1 D2 Rd'|c1 cl l e E1 D0 L1 E3 D1|c1 c2 h3 E1 E2 D0 NT Gr2];
      rewrite E2d in E1; injection E1 as <-; try exact Gr2; exfalso; cbn [dat with_dat] in *; try discriminate.
    - rewrite E2q in E2. injection E2 as <-. discriminate.
    - cbn [lk with_dat] in L1. rewrite (children_last _ _ _ _ Ch Ec) in L1. apply lasto_in in L1. apply (children_in _ _ _ _ Ch) in L1 as Px. apply (Nk _ L1).
      rewrite O2 in E3; [rewrite (kind_some _ _ _ E3), D1; reflexivity| |].
      + intros ->. revert L1. eapply sd_d; eassumption.
      + intros ->. unfold parent_of in Px. unfold dtd in Px. rewrite Hn in Px. discriminate. }
  assert (FH3 : forest h' F' G).
  { eapply forest_similar; [|exact FH']. apply cells_similar; [rewrite (grown_nxt _ _ _ _ Gr), (grown_nxt _ _ _ _ G3); reflexivity|exact (grown_fun _ _ _ _ _ G3 Gr)]. }
  destruct (grown_dat _ _ _ _ _ _ Gr E2d) as (cd' & Ed' & Dd' & _). destruct (grown_dat _ _ _ _ _ _ Gr E2q) as (cq' & Eq' & Dq' & Oq').
  assert (Hdtd : data_of h' dtd = Some (DDtd name ext sys notables)) by (unfold data_of; rewrite Eq'; cbn; rewrite Dq'; reflexivity).
  assert (Hdoc : data_of h' d = Some (DDoc v en sa (Some dtd) None)) by (unfold data_of; rewrite Ed'; cbn; rewrite Dd'; reflexivity).
  assert (Pq : parent_of h' dtd = Some d).
  { destruct Gr as (cy & Ey & Gr). unfold parent_of. destruct (l_last (lk cy)) as [z|]; destruct Gr as [_ Gr]; rewrite Gr, Pos.eqb_refl, E2q; reflexivity. }
  assert (Po : forall x, x <> dtd -> parent_of h' x = parent_of h2 x).
  { intros x Hx. destruct Gr as (cy & Ey & Gr). unfold parent_of. destruct (l_last (lk cy)) as [z|]; destruct Gr as [_ Gr]; rewrite Gr; peq; try congruence.
    - destruct (hget h2 z); reflexivity.
    - destruct (optr_eqb _ _); [destruct (hget h2 x); reflexivity|reflexivity].
    - destruct (hget h2 d); reflexivity. }
  refine (conj _ (conj Hdtd (conj Hdoc (conj _ (conj _ (conj _ _)))))).
  - refine (conj _ (conj _ (conj _ (conj _ _)))); [eauto| | | |].
    + eapply node_free; [exact FH3|]. eapply dtd_node; eassumption.
    + intros x Px _. destruct (Pos.eq_dec x dtd) as [->|Hx]; [congruence|]. rewrite Po in Px by exact Hx.
      pose proof (forest_consistent _ _ _ F2) as C. destruct (C dtd cell0 E2q) as [X _]. destruct (X eq_refl) as (ks & Kc).
      pose proof Kc as (ck & Ek & Pk & _ & _ & Ink). rewrite E2q in Ek. injection Ek as <-. cbn in Pk. inversion Pk; subst ks.
      apply Ink in Px. destruct Px.
    + repeat split; intros k p E; discriminate.
    + exists cq', name, ext, sys. refine (conj Eq' (conj Dq' _)). rewrite Oq'. cbn. exists v, en, sa, (Some dtd), None. split; [exact Hdoc|]. right. split; [reflexivity|discriminate].
  - refine (proj1 (grown_children h2 h' d dtd cs _ Ch2 (proj1 (proj2 (proj2 A2))) Hd (proj1 (proj2 A2)) _ Gr)).
    + eapply forest_consistent, FH3.
    + eapply kids_not_attr; [exact F2|exact Ch2|exact (proj1 (proj2 A2))].
  - intros x X1 X2. split.
    + unfold data_of. rewrite <- (O2 x X1 X2). destruct (hget h2 x) as [cx|] eqn:Ex.
      * destruct (grown_dat _ _ _ _ _ _ Gr Ex) as (cx' & Ex' & Dx' & _). rewrite Ex'. cbn. congruence.
      * destruct (hget h' x) as [cx'|] eqn:Ex'; [|reflexivity]. exfalso. apply (grown_live _ _ _ _ x Gr); congruence.
    + rewrite Po by exact X2. unfold parent_of. rewrite O2 by assumption. reflexivity.
  - rewrite Po by exact Hd. unfold parent_of. rewrite E2d, Ec. reflexivity.
  - rewrite Eq'. cbn. rewrite Oq'. reflexivity.
Qed.

(* dtd was just created as the internal subset of a document that has none *)
Definition opened (dtd : ptr) (h : heap) : Prop :=
  exists h0 d v en sa cs name ext sys, reach h0 /\ data_of h0 d = Some (DDoc v en sa None None) /\ children h0 d cs /\
    (forall x, In x cs -> kind h0 x <> Some DocumentNode) /\ CreateInternalSubset d name ext sys h0 = (Ret dtd, h).
Lemma opened_ok dtd h : opened dtd h -> dtd_ok h dtd notables.
Proof.
  intros (h0 & d & v & en & sa & cs & name & ext & sys & R & D & Ch & Nk & C). destruct (reach_forest _ R) as (F & G & FH).
  destruct (CreateInternalSubset_run _ _ _ _ _ _ _ _ name ext sys FH D Ch Nk) as (q & h' & C' & _ & W & _). rewrite C in C'. injection C' as -> ->. exact W.
Qed.
(* a DTD reached by a history of declarations and tree-building calls *)
Definition history (dtd : ptr) (h : heap) : Prop := exists h0 l, opened dtd h0 /\ steps dtd h0 l h.

(* what one step does to the tables; old declarations keep their data *)
Definition same_decls (h h' : heap) : Prop :=
  forall p d, data_of h p = Some d -> stable d = true -> typeOf d <> DTDNode -> data_of h' p = Some d.
Inductive moved (dtd : ptr) (h : heap) (t : tables) : decl + op -> heap -> tables -> Prop :=
| mv_call o h' : moved dtd h t (inr o) h' t
| mv_fail k h' e : declare dtd k h = (Fail e, h') -> moved dtd h t (inl k) h' t
| mv_ent name typ pub sys ct q h' : declare dtd (KEntity name typ pub sys ct) h = (Ret q, h') -> 1 <= typ <= 5 ->
    data_of h' q = Some (DEntity name typ pub sys ct []) -> moved dtd h t (inl (KEntity name typ pub sys ct)) h' (ent_tables typ name q t)
| mv_elem name local prefix typ ct q h' : declare dtd (KElement name typ ct) h = (Ret q, h') -> prefix_local name = (prefix, local) ->
    content_fits typ ct -> tget (t_elems t) (elem_key local prefix) = None ->
    data_of h' q = Some (DElemDecl local prefix typ ct) ->
    moved dtd h t (inl (KElement name typ ct)) h' (with_elems (tput (t_elems t) (elem_key local prefix) q) t)
| mv_attr el nm pf ty df v en q h' : declare dtd (KAttribute el nm pf ty df v en) h = (Ret q, h') -> 1 <= ty <= 10 ->
    tget (t_attrs t) (attr_key nm pf el) = None -> data_of h' q = Some (DAttrDecl el nm pf ty df v en) ->
    moved dtd h t (inl (KAttribute el nm pf ty df v en)) h' (with_attrs (tput (t_attrs t) (attr_key nm pf el) q) t).

Lemma same_registered h0 h dtd t q dq oq : registered h0 h dtd t q dq oq -> same_decls h0 h.
Proof. intros R p d E _ K. eapply registered_old; eassumption. Qed.
Lemma same_refl h : same_decls h h.
Proof. intros p d E _ _. exact E. Qed.
Lemma fits_dec typ ct : content_fits typ ct \/ ~ content_fits typ ct.
Proof. unfold content_fits, EmptyElementType, AnyElementType, MixedElementType, ElementElementType. destruct ct; lia. Qed.

Lemma step_moved dtd h t x h' : dtd_ok h dtd t -> step dtd h x h' ->
  exists t', moved dtd h t x h' t' /\ dtd_ok h' dtd t' /\ same_decls h h'.
Proof.
  intros W S. destruct S as [k r h' R|o r h' A N C].
  - destruct k as [name typ pub sys ct|name typ ct|el nm pf ty df v en]; cbn [declare] in R.
    + assert (D : 1 <= typ <= 5 \/ ~ (1 <= typ <= 5)) by lia. destruct D as [D|D].
      * destruct (AddEntity_run h dtd t name typ pub sys ct W D) as (q & h2 & oq & R2 & Rg & _ & W'). rewrite R in R2. injection R2 as -> <-.
        eexists. split; [eapply mv_ent; [exact R|exact D|apply Rg]|]. split; [exact W'|eapply same_registered, Rg].
      * destruct (AddEntity_bad h dtd t name typ pub sys ct W D) as (e & R2). rewrite R in R2. injection R2 as -> ->.
        exists t. split; [eapply mv_fail; exact R|]. split; [exact W|apply same_refl].
    + destruct (prefix_local name) as [prefix local] eqn:PL. destruct (fits_dec typ ct) as [D|D].
      * destruct (tget (t_elems t) (elem_key local prefix)) as [q|] eqn:Eq.
        -- destruct (AddElementDecl_again h dtd t W name local prefix typ ct PL q D Eq) as (e & R2). rewrite R in R2. injection R2 as -> ->.
           exists t. split; [eapply mv_fail; exact R|]. split; [exact W|apply same_refl].
        -- destruct (AddElementDecl_new h dtd t W name local prefix typ ct PL D Eq) as (q & h2 & oq & R2 & Rg & _ & W'). rewrite R in R2. injection R2 as -> <-.
           eexists. split; [eapply mv_elem; [exact R|exact PL|exact D|exact Eq|apply Rg]|]. split; [exact W'|eapply same_registered, Rg].
      * destruct (AddElementDecl_unfit h dtd t W name typ ct D) as (e & R2). rewrite R in R2. injection R2 as -> ->.
        exists t. split; [eapply mv_fail; exact R|]. split; [exact W|apply same_refl].
    + assert (D : 1 <= ty <= 10 \/ ~ (1 <= ty <= 10)) by lia. destruct D as [D|D].
      * destruct (tget (t_attrs t) (attr_key nm pf el)) as [q|] eqn:Eq.
        -- destruct (addAttributeDecl_again h dtd t W el nm pf ty df v en q D Eq) as (e & h2 & R2 & Old & W'). rewrite R in R2. injection R2 as -> <-.
           exists t. split; [eapply mv_fail; exact R|]. split; [exact W'|]. intros p d E _ _. apply data_of_some in E as (c & E & <-).
           unfold data_of. rewrite (Old _ _ E). reflexivity.
        -- destruct (addAttributeDecl_new h dtd t W el nm pf ty df v en D Eq) as (q & h2 & oq & R2 & Rg & _ & W'). rewrite R in R2. injection R2 as -> <-.
           eexists. split; [eapply mv_attr; [exact R|exact D|exact Eq|apply Rg]|]. split; [exact W'|eapply same_registered, Rg].
      * destruct (addAttributeDecl_bad h dtd el nm pf ty df v en D) as (e & R2). rewrite R in R2. injection R2 as -> ->.
        exists t. split; [eapply mv_fail; exact R|]. split; [exact W|apply same_refl].
  - pose proof W as ((F & G & FH) & _). destruct (call_keeps _ _ _ _ _ _ FH A N C) as (K & FG). exists t. split; [constructor|].
    split; [eapply dtd_keeps; eassumption|]. intros p d E Sd _. eapply keeps_data; eassumption.
Qed.

Lemma steps_ok dtd h l h' : steps dtd h l h' -> forall t, dtd_ok h dtd t -> exists t', dtd_ok h' dtd t'.
Proof.
  induction 1 as [h|h x h1 l h2 S SS IH]; intros t W; [eauto|]. destruct (step_moved _ _ _ _ _ W S) as (t' & _ & W' & _). eapply IH, W'.
Qed.
Lemma history_ok dtd h : history dtd h -> exists t, dtd_ok h dtd t.
Proof. intros (h0 & l & O & S). eapply steps_ok; [exact S|apply opened_ok, O]. Qed.
Lemma history_step dtd h x h' : history dtd h -> step dtd h x h' -> history dtd h'.
Proof.
  intros (h0 & l & O & S) X. exists h0, (l ++ [x]). split; [exact O|]. clear O. induction S as [h|h y h1 l h2 S SS IH].
  - econstructor; [exact X|constructor].
  - econstructor; [exact S|]. apply IH, X.
Qed.
(* the tables along a history *)
Lemma steps_tables dtd h l h' : steps dtd h l h' -> forall t, dtd_ok h dtd t -> exists t', dtd_ok h' dtd t' /\ same_decls h h' /\
  (forall k q, tget (t_elems t) k = Some q -> tget (t_elems t') k = Some q) /\
  (forall k q, tget (t_attrs t) k = Some q -> tget (t_attrs t') k = Some q) /\
  (forall k q, tget (t_ents t) k = Some q -> (forall ty pub sys ct, In (inl (KEntity k ty pub sys ct)) l -> 4 <= ty) -> tget (t_ents t') k = Some q) /\
  (forall k q, tget (t_pents t) k = Some q -> (forall ty pub sys ct, In (inl (KEntity k ty pub sys ct)) l -> ty <= 3) -> tget (t_pents t') k = Some q).
Proof.
  induction 1 as [h|h x h1 l h2 S SS IH]; intros t W; [exists t; split; [exact W|]; split; [apply same_refl|auto]|].
  destruct (step_moved _ _ _ _ _ W S) as (t1 & M & W1 & D1). destruct (IH t1 W1) as (t2 & W2 & D2 & A1 & A2 & A3 & A4).
  exists t2. split; [exact W2|]. split; [intros p d E Sd Kd; apply D2; [apply D1|..]; assumption|].
  assert (B1 : forall k q, tget (t_elems t) k = Some q -> tget (t_elems t1) k = Some q).
  { intros k q E. destruct M; try exact E; cbn [t_elems with_elems with_attrs].
    - unfold ent_tables. destruct (typ <=? 3); exact E.
    - rewrite tget_put. destruct (str_eqb_spec (elem_key local prefix) k) as [<-|]; [congruence|exact E]. }
  assert (B2 : forall k q, tget (t_attrs t) k = Some q -> tget (t_attrs t1) k = Some q).
  { intros k q E. destruct M; try exact E; cbn [t_attrs with_elems with_attrs].
    - unfold ent_tables. destruct (typ <=? 3); exact E.
    - rewrite tget_put. destruct (str_eqb_spec (attr_key nm pf el) k) as [<-|]; [congruence|exact E]. }
  refine (conj _ (conj _ (conj _ _))).
  - intros k q E. apply A1, B1, E.
  - intros k q E. apply A2, B2, E.
  - intros k q E N. apply A3; [|intros ty pub sys ct Hi; eapply N; right; exact Hi].
    destruct M; try exact E. unfold ent_tables. destruct (Z.leb_spec typ 3); [|exact E]. cbn [t_ents]. rewrite tget_put.
    destruct (str_eqb_spec name k) as [<-|]; [|exact E]. exfalso. assert (4 <= typ) by (eapply N; left; reflexivity). lia.
  - intros k q E N. apply A4; [|intros ty pub sys ct Hi; eapply N; right; exact Hi].
    destruct M; try exact E. unfold ent_tables. destruct (Z.leb_spec typ 3); [exact E|]. cbn [t_pents]. rewrite tget_put.
    destruct (str_eqb_spec name k) as [<-|]; [|exact E]. exfalso. assert (typ <= 3) by (eapply N; left; reflexivity). lia.
Qed.
Lemma lookups dtd h t : dtd_ok h dtd t ->
  (forall n p, LookupElement dtd n p h = (Ret (tget (t_elems t) (elem_key n p)), h)) /\
  (forall n p e, LookupAttribute dtd n p e h = (Ret (tget (t_attrs t) (attr_key n p e)), h)) /\
  (forall n, LookupEntity dtd n h = (Ret (tget (t_ents t) n), h)) /\
  (forall n, LookupParameterEntity dtd n h = (Ret (tget (t_pents t) n), h)) /\
  (forall n, GetElementDesc dtd n h = (Ret (tget (t_elems t) n), h)).
Proof.
  intros (_ & _ & _ & _ & (c & n & e & s & Ec & Dc & _)). repeat split; intros;
    unfold LookupElement, LookupAttribute, LookupEntity, LookupParameterEntity, GetElementDesc;
    rewrite (hbind_ret _ _ _ _ _ (getDtd_run _ _ _ _ _ _ _ Ec Dc)); reflexivity.
Qed.
Lemma steps_origin dtd h l h' : steps dtd h l h' -> forall t, dtd_ok h dtd t -> forall t', dtd_ok h' dtd t' ->
  (forall k q, tget (t_elems t') k = Some q -> tget (t_elems t) k = Some q \/
     exists name local prefix typ ct, In (inl (KElement name typ ct)) l /\ prefix_local name = (prefix, local) /\ k = elem_key local prefix /\
       data_of h' q = Some (DElemDecl local prefix typ ct)) /\
  (forall k q, tget (t_attrs t') k = Some q -> tget (t_attrs t) k = Some q \/
     exists el nm pf ty df v en, In (inl (KAttribute el nm pf ty df v en)) l /\ k = attr_key nm pf el /\ data_of h' q = Some (DAttrDecl el nm pf ty df v en)) /\
  (forall k q, tget (t_ents t') k = Some q -> tget (t_ents t) k = Some q \/
     exists typ pub sys ct, In (inl (KEntity k typ pub sys ct)) l /\ 1 <= typ <= 3 /\ data_of h' q = Some (DEntity k typ pub sys ct [])) /\
  (forall k q, tget (t_pents t') k = Some q -> tget (t_pents t) k = Some q \/
     exists typ pub sys ct, In (inl (KEntity k typ pub sys ct)) l /\ 4 <= typ <= 5 /\ data_of h' q = Some (DEntity k typ pub sys ct [])).
Proof.
  induction 1 as [h|h x h1 l h2 S SS IH]; intros t W t' W'.
  - assert (t' = t) as ->.
    { destruct W as (_ & _ & _ & _ & (c & n & e & s & Ec & Dc & _)). destruct W' as (_ & _ & _ & _ & (c' & n' & e' & s' & Ec' & Dc' & _)). congruence. }
    auto.
  - destruct (step_moved _ _ _ _ _ W S) as (t1 & M & W1 & _). destruct (steps_tables _ _ _ _ SS _ W1) as (t2 & _ & D2 & _).
    destruct (IH t1 W1 t' W') as (A1 & A2 & A3 & A4). refine (conj _ (conj _ (conj _ _))); intros k q E.
    + destruct (A1 k q E) as [B|(nm & lc & pf & ty & ct & I0 & B)]; [|right; exists nm, lc, pf, ty, ct; split; [right; exact I0|exact B]].
      destruct M; cbn [t_elems with_elems with_attrs] in B; try (left; exact B).
      * left. unfold ent_tables in B. destruct (typ <=? 3); exact B.
      * rewrite tget_put in B. destruct (str_eqb_spec (elem_key local prefix) k) as [<-|]; [|left; exact B]. injection B as <-. right.
        exists name, local, prefix, typ, ct. refine (conj (or_introl eq_refl) (conj H0 (conj eq_refl _))). apply D2; [assumption|reflexivity|discriminate].
    + destruct (A2 k q E) as [B|(el & nm & pf & ty & df & v & en & I0 & B)]; [|right; exists el, nm, pf, ty, df, v, en; split; [right; exact I0|exact B]].
      destruct M; cbn [t_attrs with_elems with_attrs] in B; try (left; exact B).
      * left. unfold ent_tables in B. destruct (typ <=? 3); exact B.
      * rewrite tget_put in B. destruct (str_eqb_spec (attr_key nm pf el) k) as [<-|]; [|left; exact B]. injection B as <-. right.
        exists el, nm, pf, ty, df, v, en. refine (conj (or_introl eq_refl) (conj eq_refl _)). apply D2; [assumption|reflexivity|discriminate].
    + destruct (A3 k q E) as [B|(ty & pu & sy & ct & I0 & B)]; [|right; exists ty, pu, sy, ct; split; [right; exact I0|exact B]].
      destruct M; try (left; exact B). unfold ent_tables in B. destruct (Z.leb_spec typ 3); [|left; exact B]. cbn [t_ents] in B.
      rewrite tget_put in B. destruct (str_eqb_spec name k) as [<-|]; [|left; exact B]. injection B as <-. right.
      exists typ, pub, sys, ct. refine (conj (or_introl eq_refl) (conj _ _)); [lia|]. apply D2; [assumption|reflexivity|discriminate].
    + destruct (A4 k q E) as [B|(ty & pu & sy & ct & I0 & B)]; [|right; exists ty, pu, sy, ct; split; [right; exact I0|exact B]].
      destruct M; try (left; exact B). unfold ent_tables in B. destruct (Z.leb_spec typ 3); [left; exact B|]. cbn [t_pents] in B.
      rewrite tget_put in B. destruct (str_eqb_spec name k) as [<-|]; [|left; exact B]. injection B as <-. right.
      exists typ, pub, sys, ct. refine (conj (or_introl eq_refl) (conj _ _)); [lia|]. apply D2; [assumption|reflexivity|discriminate].
Qed.

(* ---- entities ---- *)
Definition general (typ : Z) : bool := typ <=? 3.
Definition LookupOf (general : bool) (dtd : ptr) (name : str) : HM (option ptr) :=
  if general then LookupEntity dtd name else LookupParameterEntity dtd name.
Lemma entity_kept dtd h name typ pub sys ct q h1 l h2 :
  history dtd h -> declare dtd (KEntity name typ pub sys ct) h = (Ret q, h1) -> steps dtd h1 l h2 ->
  (forall ty pu sy c, In (inl (KEntity name ty pu sy c)) l -> general ty <> general typ) ->
  LookupOf (general typ) dtd name h2 = (Ret (Some q), h2) /\ data_of h2 q = Some (DEntity name typ pub sys ct []).
Proof.
  intros H R S N. destruct (history_ok _ _ H) as (t & W). pose proof (st_decl dtd h _ _ _ R) as St.
  destruct (step_moved _ _ _ _ _ W St) as (t1 & M & W1 & _). inversion M; subst; try congruence.
  match goal with X : declare _ _ h = (Ret ?y, h1) |- _ => rewrite R in X; injection X as <- end. destruct (steps_tables _ _ _ _ S _ W1) as (t2 & W2 & D2 & _ & _ & A3 & A4).
  destruct (lookups _ _ _ W2) as (_ & _ & L3 & L4 & _). split; [|apply D2; [assumption|reflexivity|discriminate]].
  unfold LookupOf, general in *. destruct (Z.leb_spec typ 3) as [Le|Gt].
  - rewrite L3. do 2 f_equal. apply A3.
    + unfold ent_tables. apply Z.leb_le in Le. rewrite Le. cbn [t_ents]. rewrite tget_put, str_eqb_refl. reflexivity.
    + intros ty pu sy c Hi. specialize (N _ _ _ _ Hi). destruct (Z.leb_spec ty 3); [congruence|lia].
  - rewrite L4. do 2 f_equal. apply A4.
    + unfold ent_tables. apply Z.leb_gt in Gt. rewrite Gt. cbn [t_pents]. rewrite tget_put, str_eqb_refl. reflexivity.
    + intros ty pu sy c Hi. specialize (N _ _ _ _ Hi). destruct (Z.leb_spec ty 3); [lia|congruence].
Qed.
Lemma entity_declared dtd h0 l h g name q : opened dtd h0 -> steps dtd h0 l h -> LookupOf g dtd name h = (Ret (Some q), h) ->
  exists typ pub sys ct, In (inl (KEntity name typ pub sys ct)) l /\ general typ = g /\ data_of h q = Some (DEntity name typ pub sys ct []).
Proof.
  intros O S L. pose proof (opened_ok _ _ O) as W. destruct (steps_ok _ _ _ _ S _ W) as (t' & W'). destruct (lookups _ _ _ W') as (_ & _ & L3 & L4 & _).
  destruct (steps_origin _ _ _ _ S _ W _ W') as (_ & _ & A3 & A4). unfold LookupOf, general in *. destruct g.
  - rewrite L3 in L. injection L as L. destruct (A3 _ _ L) as [X|(ty & pu & sy & ct & I0 & Hty & X)]; [discriminate|].
    exists ty, pu, sy, ct. refine (conj I0 (conj _ X)). apply Z.leb_le. lia.
  - rewrite L4 in L. injection L as L. destruct (A4 _ _ L) as [X|(ty & pu & sy & ct & I0 & Hty & X)]; [discriminate|].
    exists ty, pu, sy, ct. refine (conj I0 (conj _ X)). apply Z.leb_gt. lia.
Qed.

(* ---- elements ---- *)
Lemma element_kept dtd h name local prefix typ ct q h1 l h2 :
  history dtd h -> declare dtd (KElement name typ ct) h = (Ret q, h1) -> prefix_local name = (prefix, local) -> steps dtd h1 l h2 ->
  LookupElement dtd local prefix h2 = (Ret (Some q), h2) /\ data_of h2 q = Some (DElemDecl local prefix typ ct) /\
  (forall n p, ~ In 58 p -> LookupElement dtd n p h2 = (Ret (Some q), h2) -> n = local /\ p = prefix) /\
  (forall name' typ' ct', prefix_local name' = (prefix, local) -> exists e, declare dtd (KElement name' typ' ct') h2 = (Fail e, h2)).
Proof.
  intros H R PL S. destruct (history_ok _ _ H) as (t & W). pose proof (st_decl dtd h _ _ _ R) as St.
  destruct (step_moved _ _ _ _ _ W St) as (t1 & M & W1 & _). inversion M; subst; try congruence.
  match goal with X : declare _ _ h = (Ret ?y, h1), Y : prefix_local name = (?a, ?b) |- _ => rewrite R in X; injection X as <-; rewrite PL in Y; injection Y as <- <- end.
  destruct (steps_tables _ _ _ _ S _ W1) as (t2 & W2 & D2 & A1 & _). destruct (lookups _ _ _ W2) as (L1 & _).
  assert (E2 : tget (t_elems t2) (elem_key local prefix) = Some q).
  { apply A1. cbn [t_elems with_elems]. rewrite tget_put, str_eqb_refl. reflexivity. }
  assert (Dq : data_of h2 q = Some (DElemDecl local prefix typ ct)) by (apply D2; [assumption|reflexivity|discriminate]).
  refine (conj _ (conj Dq (conj _ _))).
  - rewrite L1, E2. reflexivity.
  - intros n p Hp. rewrite L1. intro X. injection X as X. destruct W2 as (_ & _ & _ & (T & _) & _).
    destruct (T _ _ X) as (nm & pf & ty & c & Y & K & _ & Hpf). rewrite Dq in Y. injection Y as <- <- <- <-. apply elem_key_inj in K; auto.
  - intros name' typ' ct' PL'. cbn [declare]. destruct (fits_dec typ' ct').
    + eapply AddElementDecl_again; eassumption.
    + eapply AddElementDecl_unfit; eassumption.
Qed.
Lemma element_declared dtd h0 l h n p q : opened dtd h0 -> steps dtd h0 l h -> ~ In 58 p -> LookupElement dtd n p h = (Ret (Some q), h) ->
  exists name typ ct, In (inl (KElement name typ ct)) l /\ prefix_local name = (p, n) /\ data_of h q = Some (DElemDecl n p typ ct).
Proof.
  intros O S Hp L. pose proof (opened_ok _ _ O) as W. destruct (steps_ok _ _ _ _ S _ W) as (t' & W'). destruct (lookups _ _ _ W') as (L1 & _).
  destruct (steps_origin _ _ _ _ S _ W _ W') as (A1 & _). rewrite L1 in L. injection L as L.
  destruct (A1 _ _ L) as [X|(name & lc & pf & ty & ct & I0 & PL & K & D)]; [discriminate|].
  apply elem_key_inj in K as [-> ->]; [|exact Hp|eapply prefix_no_colon, PL]. exists name, ty, ct. auto.
Qed.
Lemma element_new dtd h name local prefix typ ct : history dtd h -> prefix_local name = (prefix, local) -> content_fits typ ct ->
  LookupElement dtd local prefix h = (Ret None, h) ->
  exists q h', declare dtd (KElement name typ ct) h = (Ret q, h') /\ parent_of h' q = Some dtd /\
    (forall n p o, ~ In 58 p -> (n, p) <> (local, prefix) -> LookupElement dtd n p h = (Ret o, h) -> LookupElement dtd n p h' = (Ret o, h')) /\
    (forall n p e o, LookupAttribute dtd n p e h = (Ret o, h) -> LookupAttribute dtd n p e h' = (Ret o, h')) /\
    (forall g n o, LookupOf g dtd n h = (Ret o, h) -> LookupOf g dtd n h' = (Ret o, h')).
Proof.
  intros H PL Ft L. destruct (history_ok _ _ H) as (t & W). destruct (lookups _ _ _ W) as (L1 & L2 & L3 & L4 & _).
  rewrite L1 in L. injection L as L. destruct (AddElementDecl_new h dtd t W name local prefix typ ct PL Ft L) as (q & h' & oq & R & Rg & _ & W').
  destruct (lookups _ _ _ W') as (M1 & M2 & M3 & M4 & _). cbn [t_elems t_attrs t_ents t_pents with_elems] in *.
  exists q, h'. split; [exact R|]. split; [apply Rg|]. refine (conj _ (conj _ _)).
  - intros n p o Hp Hnp. rewrite L1, M1. intro X. injection X as <-. rewrite tget_put. destruct (str_eqb_spec (elem_key local prefix) (elem_key n p)) as [K|]; [|reflexivity].
    apply elem_key_inj in K as [-> ->]; [exfalso; apply Hnp; reflexivity|eapply prefix_no_colon, PL|exact Hp].
  - intros n p e o. rewrite L2, M2. intro X. injection X as <-. reflexivity.
  - intros g n o. unfold LookupOf. destruct g; [rewrite L3, M3|rewrite L4, M4]; intro X; injection X as <-; reflexivity.
Qed.

(* ---- attributes ---- *)
Lemma attribute_kept dtd h el nm pf ty df v en q h1 l h2 :
  history dtd h -> declare dtd (KAttribute el nm pf ty df v en) h = (Ret q, h1) -> steps dtd h1 l h2 ->
  LookupAttribute dtd nm pf el h2 = (Ret (Some q), h2) /\ data_of h2 q = Some (DAttrDecl el nm pf ty df v en) /\
  (forall n p e, ~ In 58 nm -> ~ In 58 pf -> ~ In 58 n -> ~ In 58 p -> LookupAttribute dtd n p e h2 = (Ret (Some q), h2) -> n = nm /\ p = pf /\ e = el) /\
  (forall ty' df' v' en', exists e h3, declare dtd (KAttribute el nm pf ty' df' v' en') h2 = (Fail e, h3) /\
     forall x c, hget h2 x = Some c -> hget h3 x = Some c).
Proof.
  intros H R S. destruct (history_ok _ _ H) as (t & W). pose proof (st_decl dtd h _ _ _ R) as St.
  destruct (step_moved _ _ _ _ _ W St) as (t1 & M & W1 & _). inversion M; subst; try congruence.
  match goal with X : declare _ _ h = (Ret ?y, h1) |- _ => rewrite R in X; injection X as <- end.
  destruct (steps_tables _ _ _ _ S _ W1) as (t2 & W2 & D2 & _ & A2 & _). destruct (lookups _ _ _ W2) as (_ & L2 & _).
  assert (E2 : tget (t_attrs t2) (attr_key nm pf el) = Some q).
  { apply A2. cbn [t_attrs with_attrs]. rewrite tget_put, str_eqb_refl. reflexivity. }
  assert (Dq : data_of h2 q = Some (DAttrDecl el nm pf ty df v en)) by (apply D2; [assumption|reflexivity|discriminate]).
  refine (conj _ (conj Dq (conj _ _))).
  - rewrite L2, E2. reflexivity.
  - intros n p e N1 N2 N3 N4. rewrite L2. intro X. injection X as X. destruct W2 as (_ & _ & _ & (_ & T & _) & _).
    destruct (T _ _ X) as (el' & nm' & pf' & ty' & df' & v' & en' & Y & K). rewrite Dq in Y. injection Y as <- <- <- <- <- <- <-.
    apply attr_key_inj in K; auto.
  - intros ty' df' v' en'. cbn [declare]. assert (D : 1 <= ty' <= 10 \/ ~ (1 <= ty' <= 10)) by lia. destruct D as [D|D].
    + destruct (addAttributeDecl_again h2 dtd t2 W2 el nm pf ty' df' v' en' q D E2) as (e & h3 & R3 & Old & _). eauto.
    + destruct (addAttributeDecl_bad h2 dtd el nm pf ty' df' v' en' D) as (e & R3). exists e, h2. auto.
Qed.
Lemma attribute_declared dtd h0 l h n p e q : opened dtd h0 -> steps dtd h0 l h -> ~ In 58 n -> ~ In 58 p ->
  (forall el nm pf ty df v en, In (inl (KAttribute el nm pf ty df v en)) l -> ~ In 58 nm /\ ~ In 58 pf) ->
  LookupAttribute dtd n p e h = (Ret (Some q), h) ->
  exists ty df v en, In (inl (KAttribute e n p ty df v en)) l /\ data_of h q = Some (DAttrDecl e n p ty df v en).
Proof.
  intros O S Hn Hp HL L. pose proof (opened_ok _ _ O) as W. destruct (steps_ok _ _ _ _ S _ W) as (t' & W'). destruct (lookups _ _ _ W') as (_ & L2 & _).
  destruct (steps_origin _ _ _ _ S _ W _ W') as (_ & A2 & _). rewrite L2 in L. injection L as L.
  destruct (A2 _ _ L) as [X|(el & nm & pf & ty & df & v & en & I0 & K & D)]; [discriminate|]. destruct (HL _ _ _ _ _ _ _ I0) as [N1 N2].
  apply attr_key_inj in K as (-> & -> & ->); try assumption. exists ty, df, v, en. auto.
Qed.
Lemma attribute_new dtd h el nm pf ty df v en : history dtd h -> 1 <= ty <= 10 -> LookupAttribute dtd nm pf el h = (Ret None, h) ->
  exists q h', declare dtd (KAttribute el nm pf ty df v en) h = (Ret q, h') /\ parent_of h' q = Some dtd /\
    (forall n p e o, ~ In 58 nm -> ~ In 58 pf -> ~ In 58 n -> ~ In 58 p -> (n, p, e) <> (nm, pf, el) ->
       LookupAttribute dtd n p e h = (Ret o, h) -> LookupAttribute dtd n p e h' = (Ret o, h')) /\
    (forall n p o, LookupElement dtd n p h = (Ret o, h) -> LookupElement dtd n p h' = (Ret o, h')) /\
    (forall g n o, LookupOf g dtd n h = (Ret o, h) -> LookupOf g dtd n h' = (Ret o, h')).
Proof.
  intros H Ft L. destruct (history_ok _ _ H) as (t & W). destruct (lookups _ _ _ W) as (L1 & L2 & L3 & L4 & _).
  rewrite L2 in L. injection L as L. destruct (addAttributeDecl_new h dtd t W el nm pf ty df v en Ft L) as (q & h' & oq & R & Rg & _ & W').
  destruct (lookups _ _ _ W') as (M1 & M2 & M3 & M4 & _). cbn [t_elems t_attrs t_ents t_pents with_attrs] in *.
  exists q, h'. split; [exact R|]. split; [apply Rg|]. refine (conj _ (conj _ _)).
  - intros n p e o N1 N2 N3 N4 Hnp. rewrite L2, M2. intro X. injection X as <-. rewrite tget_put.
    destruct (str_eqb_spec (attr_key nm pf el) (attr_key n p e)) as [K|]; [|reflexivity]. apply attr_key_inj in K as (-> & -> & ->); [exfalso; apply Hnp; reflexivity|assumption..].
  - intros n p o. rewrite L1, M1. intro X. injection X as <-. reflexivity.
  - intros g n o. unfold LookupOf. destruct g; [rewrite L3, M3|rewrite L4, M4]; intro X; injection X as <-; reflexivity.
Qed.
(* ---- GetElementDesc ---- *)
Lemma desc_blind dtd h n : history dtd h -> ~ In 58 n -> GetElementDesc dtd n h = (Ret None, h).
Proof.
  intros H Hn. destruct (history_ok _ _ H) as (t & W). destruct (lookups _ _ _ W) as (_ & _ & _ & _ & L). rewrite L.
  destruct (tget (t_elems t) n) as [q|] eqn:E; [|reflexivity]. exfalso. destruct W as (_ & _ & _ & (T & _) & _).
  destruct (T _ _ E) as (nm & pf & _ & _ & _ & K & _). apply Hn. rewrite K. unfold elem_key. apply in_app_iff. right. left. reflexivity.
Qed.

(* ---- IsMixedElement ---- *)
Lemma mixed_run h d v e sa i x n q : data_of h d = Some (DDoc v e sa (Some i) x) -> GetElementDesc i n h = (Ret q, h) ->
  IsMixedElement (Some d) n h = match q with
    | None => (Fail "element declaration not found"%string, h)
    | Some p => match data_of h p with
                | Some (DElemDecl _ _ t _) => if t =? UndefinedElementType then (Fail "element declaration not found"%string, h) else (Ret (negb (t =? ElementElementType)), h)
                | _ => (Pan, h)
                end
    end.
Proof.
  unfold data_of. intros D G. destruct (hget h d) as [c|] eqn:E; [|discriminate]. cbn in D. injection D as D.
  assert (Gd : getDoc d h = (Ret (v, e, sa, Some i, x), h)).
  { unfold getDoc. rewrite (bind_getc _ _ _ _ E). cbv beta. rewrite D. reflexivity. }
  unfold IsMixedElement. cbn [deref]. rewrite (hbind_ret _ _ _ _ _ (eq_refl (hret d h))), (hbind_ret _ _ _ _ _ Gd). cbv beta iota.
  rewrite (hbind_ret _ _ _ _ _ G). destruct q as [q|]; [|reflexivity]. unfold declType, hbind, getc.
  destruct (hget h q) as [k|]; [|reflexivity]. cbn. destruct (dat k); try reflexivity. cbn. destruct (typ =? UndefinedElementType); reflexivity.
Qed.
Lemma mixed_blind dtd h d v e sa x n : history dtd h -> data_of h d = Some (DDoc v e sa (Some dtd) x) -> ~ In 58 n ->
  exists m, IsMixedElement (Some d) n h = (Fail m, h).
Proof. intros H D N. rewrite (mixed_run _ _ _ _ _ _ _ _ _ D (desc_blind _ _ _ H N)). eauto. Qed.
Lemma mixed_says dtd h name local prefix typ ct q h1 l h2 d v e sa x :
  history dtd h -> declare dtd (KElement name typ ct) h = (Ret q, h1) -> prefix_local name = (prefix, local) -> steps dtd h1 l h2 ->
  data_of h2 d = Some (DDoc v e sa (Some dtd) x) ->
  IsMixedElement (Some d) (local ++ s_ ":" ++ prefix) h2 = (Ret (negb (typ =? ElementElementType)), h2).
Proof.
  intros H R PL S D. destruct (element_kept _ _ _ _ _ _ _ _ _ _ _ H R PL S) as (L & Dq & _).
  rewrite (mixed_run _ _ _ _ _ _ _ _ (Some q) D). 2:{ exact L. } rewrite Dq.
  destruct (fits_dec typ ct) as [F|F].
  - replace (typ =? UndefinedElementType) with false; [reflexivity|]. unfold content_fits, UndefinedElementType, EmptyElementType, AnyElementType, MixedElementType, ElementElementType in *.
    symmetry. apply Z.eqb_neq. destruct ct; lia.
  - destruct (history_ok _ _ H) as (t & W). exfalso. cbn [declare] in R. destruct (AddElementDecl_unfit h dtd t W name typ ct F) as (m & X). congruence.
Qed.

(* ---- content models ---- *)
Definition particle (e : econt) : Z * Z * str * str * option econt * option econt :=
  match e with EC ct oc n p c1 c2 => (ct, oc, n, p, c1, c2) end.
Lemma split_colon_some s p l : split_colon s = Some (p, l) -> s = p ++ 58 :: l /\ ~ In 58 p.
Proof.
  revert p. induction s as [|c s IH]; cbn; intros p E; [discriminate|]. destruct (Z.eqb_spec c 58) as [->|Hc].
  - injection E as <- <-. split; [reflexivity|intros []].
  - destruct (split_colon s) as [[p' l']|]; [|discriminate]. injection E as <- <-. destruct (IH p' eq_refl) as [-> N]. split; [reflexivity|].
    intros [->|X]; [apply Hc; reflexivity|exact (N X)].
Qed.
Lemma split_colon_none s : split_colon s = None -> ~ In 58 s.
Proof.
  induction s as [|c s IH]; cbn; intro E; [intros []|]. destruct (Z.eqb_spec c 58) as [->|Hc]; [discriminate|].
  destruct (split_colon s) as [[p' l']|]; [discriminate|]. intros [->|X]; [apply Hc; reflexivity|exact (IH eq_refl X)].
Qed.
Lemma newElementContent_named name ct e : newElementContent name ct = Ret e ->
  exists l p, particle e = (ct, ocOnce, l, p, None, None) /\
  ((ct = ctElement /\ name <> [] /\ ((p = [] /\ l = name /\ ~ In 58 name) \/ (name = p ++ 58 :: l /\ ~ In 58 p))) \/
   (In ct [ctPCDATA; ctSeq; ctOr] /\ name = [] /\ l = [] /\ p = [])).
Proof.
  unfold newElementContent. destruct (Z.eqb_spec ct ctElement) as [->|Hc].
  - destruct name as [|c name]; [discriminate|]. unfold prefix_local. destruct (split_colon (c :: name)) as [[p l]|] eqn:E; intro X; injection X as <-.
    + exists l, p. split; [reflexivity|]. left. refine (conj eq_refl (conj _ _)); [discriminate|]. right. apply split_colon_some, E.
    + exists (c :: name), []. split; [reflexivity|]. left. refine (conj eq_refl (conj _ _)); [discriminate|]. left. refine (conj eq_refl (conj eq_refl _)). apply split_colon_none, E.
  - destruct ((ct =? ctPCDATA) || (ct =? ctSeq) || (ct =? ctOr)) eqn:E; [|discriminate]. destruct name; [|discriminate]. intro X. injection X as <-.
    exists [], []. split; [reflexivity|]. right. refine (conj _ (conj eq_refl (conj eq_refl eq_refl))).
    unfold ctPCDATA, ctSeq, ctOr in *. cbn. lia.
Qed.
Lemma newElementContent_accepts name ct : (exists e, newElementContent name ct = Ret e) <->
  (ct = ctElement /\ name <> []) \/ (In ct [ctPCDATA; ctSeq; ctOr] /\ name = []).
Proof.
  split.
  - intros (e & E). apply newElementContent_named in E as (l & p & _ & [(A & B & _)|(A & B & _)]); auto.
  - unfold newElementContent. intros [[-> N]|[I0 ->]].
    + destruct name; [congruence|]. cbn [Z.eqb]. change (ctElement =? ctElement) with true. cbv iota. destruct (prefix_local _). eauto.
    + destruct I0 as [<-|[<-|[<-|[]]]]; eexists; reflexivity.
Qed.

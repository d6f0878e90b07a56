(* What the single calls do, in terms of lists of children. *)
From Coq Require Import FMapPositive Permutation.
From Verif Require Import Base Utf8 Utf8Proofs Escape Scan Heap TreeShape TreeOps Forest ForestOps ForestAdd ForestAttr History.

(* ---- vocabulary ---- *)

(* the last child of p is l *)
Definition last_child (h : heap) (p l : ptr) : Prop := exists cs, children h p (cs ++ [l]).
Definition data_of (h : heap) (p : ptr) : option data := option_map dat (hget h p).
Definition text_at (h : heap) (p : ptr) (s : str) : Prop := data_of h p = Some (DText s).
Definition comment_at (h : heap) (p : ptr) (s : str) : Prop := data_of h p = Some (DComment s).
Definition kind (h : heap) (p : ptr) : option Z := option_map typeOf (data_of h p).
(* only the data of p differs *)
Definition only_data (h : heap) (p : ptr) (d : data) (h' : heap) : Prop :=
  (exists c, hget h p = Some c /\ hget h' p = Some (with_dat d c)) /\
  forall x, x <> p -> hget h' x = hget h x.
(* No node has other data, owner or children than before, except that the
   children of p are now cs; attributes are as they were. *)
Definition only_children (h : heap) (p : ptr) (cs : list ptr) (h' : heap) : Prop :=
  children h' p cs /\
  (forall x l, x <> p -> ~ in_attr h x -> children h x l -> children h' x l) /\
  (forall x, data_of h' x = data_of h x) /\
  (forall x, option_map owner (hget h' x) = option_map owner (hget h x)) /\
  (forall x, in_attr h x -> hget h' x = hget h x).

Lemma data_of_some h p d : data_of h p = Some d -> exists c, hget h p = Some c /\ dat c = d.
Proof. unfold data_of. destruct (hget h p) as [c|]; cbn; [intro E; injection E as <-; eauto|discriminate]. Qed.
Lemma redata_only h p d h' c : hget h p = Some c -> redata h p d h' -> only_data h p d h'.
Proof.
  intros E [_ R]. split.
  - exists c. split; [exact E|]. rewrite R, Pos.eqb_refl, E. reflexivity.
  - intros x Hx. rewrite R. peq; [contradiction|reflexivity].
Qed.

(* ---- paths through a changed heap ---- *)
Lemma path_same h h' o l : path h o l ->
  (forall x c, In x l -> hget h x = Some c -> exists c', hget h' x = Some c' /\ l_next (lk c') = l_next (lk c)) ->
  path h' o l.
Proof.
  induction 1 as [|p c l E P IH]; intro S; [constructor|].
  destruct (S p c (or_introl eq_refl) E) as (c' & E' & N'). econstructor; [exact E'|]. rewrite N'. apply IH.
  intros x cx Hx. apply S. right. exact Hx.
Qed.
Lemma path_snoc h h' o l z q cq : path h o (l ++ [z]) -> NoDup (l ++ [z]) ->
  (forall x c, In x l -> hget h x = Some c -> exists c', hget h' x = Some c' /\ l_next (lk c') = l_next (lk c)) ->
  (exists c', hget h' z = Some c' /\ l_next (lk c') = Some q) ->
  hget h' q = Some cq -> l_next (lk cq) = None -> path h' o ((l ++ [z]) ++ [q]).
Proof.
  revert o. induction l as [|x l IH]; intros o P Nd S (cz & Ez & Nz) Eq Nq; cbn [app] in *.
  - inversion P as [|z' c' l' E1 P1]; subst. econstructor; [exact Ez|]. rewrite Nz. econstructor; [exact Eq|]. rewrite Nq. constructor.
  - inversion P as [|z' c' l' E1 P1]; subst. destruct (S x c' (or_introl eq_refl) E1) as (c2 & E2 & N2).
    econstructor; [exact E2|]. rewrite N2. inversion Nd; subst. apply IH; eauto.
    intros y cy Hy. apply S. right. exact Hy.
Qed.
Lemma children_by_path h p c l : consistent h -> hget h p = Some c -> is_attr (dat c) = false ->
  path h (l_first (lk c)) l -> children h p l.
Proof.
  intros C E A P. destruct (C p c E) as [X _]. destruct (X A) as (cs & Y).
  pose proof Y as (c' & E' & P' & _). rewrite E in E'. injection E' as <-. rewrite (path_fun _ _ _ P _ P'). exact Y.
Qed.
Lemma children_last h p cs c : children h p cs -> hget h p = Some c -> l_last (lk c) = lasto cs.
Proof.
  intros (c' & E & _ & R & _) E'. rewrite E in E'. injection E' as <-.
  destruct (snoc_cases cs) as [->|(l & z & ->)].
  - inversion R. reflexivity.
  - rewrite rev_app_distr in R. inversion R; subst. rewrite lasto_snoc. congruence.
Qed.
Lemma children_parent h p cs x c : children h p cs -> hget h x = Some c -> l_par (lk c) = Some p -> In x cs.
Proof. intros (c' & _ & _ & _ & _ & P) E Q. apply P. unfold parent_of. rewrite E. exact Q. Qed.
Lemma children_in h p cs x : children h p cs -> In x cs -> parent_of h x = Some p.
Proof. intros (c' & _ & _ & _ & _ & P) H. apply P, H. Qed.

(* ---- growing ---- *)
Lemma grown_children h h' p q cs :
  consistent h' -> children h p cs -> loose h q -> p <> q -> ~ in_attr h p ->
  (forall x, In x cs -> ~ in_attr h x) -> grown h p q h' ->
  only_children h p (cs ++ [q]) h'.
Proof.
  intros C Ch (cq & Eq & Aq & Pq & Pvq & Nxq) Hpq NA NAk Gr. pose proof Gr as (cp & Ep & G).
  assert (Apf : is_attr (dat cp) = false).
  { destruct (is_attr (dat cp)) eqn:E; [|reflexivity]. exfalso. apply NA. exists cp. auto. }
  pose proof (children_last _ _ _ _ Ch Ep) as El.
  pose proof Ch as (c1 & E1 & P1 & R1 & Nd & Par). rewrite Ep in E1. injection E1 as <-.
  (* cells that keep their next and first *)
  assert (Nz : forall x c, hget h x = Some c -> x <> q -> l_last (lk cp) <> Some x ->
               exists c', hget h' x = Some c' /\ l_next (lk c') = l_next (lk c)).
  { intros x c E Hq Hz. destruct (l_last (lk cp)) as [z|].
    - destruct G as [_ B]. rewrite B. peq; try congruence. destruct (optr_eqb _ _); rewrite E; cbn; eauto.
    - destruct G as [_ B]. rewrite B. peq; try congruence; rewrite E; cbn; eauto. }
  assert (Fst : forall x c, hget h x = Some c -> x <> p -> exists c', hget h' x = Some c' /\ l_first (lk c') = l_first (lk c) /\ dat c' = dat c).
  { intros x c E Hx. destruct (l_last (lk cp)) as [z|].
    - destruct G as [_ B]. rewrite B. peq; try (destruct (optr_eqb _ _)); rewrite E; cbn; eauto.
    - destruct G as [_ B]. rewrite B. peq; try congruence; rewrite E; cbn; eauto. }
  refine (conj _ (conj _ (conj _ (conj _ _)))).
  - destruct (grown_dat _ _ _ _ _ _ Gr Ep) as (cp' & Ep' & Dp' & _).
    eapply children_by_path; [exact C|exact Ep'|congruence|].
    destruct (snoc_cases cs) as [->|(l & z & ->)].
    + cbn in El. rewrite El in G. destruct G as [_ B]. rewrite B in Ep'. destruct (Pos.eqb_spec p q); [contradiction|].
      rewrite Pos.eqb_refl, Ep in Ep'. cbn in Ep'. injection Ep' as <-. cbn [with_lk lk lset_last lset_first l_first app].
      econstructor; [rewrite B, Pos.eqb_refl, Eq; reflexivity|]. cbn [with_lk lk lset_par l_next]. rewrite Nxq. constructor.
    + rewrite lasto_snoc in El. pose proof G as G0. rewrite El in G. destruct G as [_ B].
      assert (Hz : In z (l ++ [z])) by (apply in_elt).
      assert (Hzp : parent_of h z = Some p) by (apply Par, Hz).
      assert (Hzq : z <> q).
      { intros ->. unfold parent_of in Hzp. rewrite Eq in Hzp. congruence. }
      assert (Hzp2 : z <> p).
      { intros ->. destruct (C p cp' Ep') as [_ Gp]. unfold parent_of in Hzp. rewrite Ep in Hzp.
        assert (Pp' : l_par (lk cp') = Some p).
        { rewrite B in Ep'. destruct (Pos.eqb_spec p q); [contradiction|]. rewrite Pos.eqb_refl, Ep in Ep'. cbn in Ep'. injection Ep' as <-. exact Hzp. }
        clear - Gp Pp' Ep'. induction Gp as [x c E Q|x c r E Q Gp IH].
        - rewrite E in Ep'. injection Ep' as <-. congruence.
        - rewrite E in Ep'. injection Ep' as <-. rewrite Q in Pp'. injection Pp' as ->. exact (IH E Q). }
      assert (Hz0 : exists cz, hget h z = Some cz).
      { unfold parent_of in Hzp. destruct (hget h z); [eauto|discriminate]. }
      destruct Hz0 as (cz & Ez).
      assert (Efp : l_first (lk cp') = l_first (lk cp)).
      { rewrite B in Ep'. destruct (Pos.eqb_spec p q); [contradiction|]. destruct (Pos.eqb_spec p z); [congruence|].
        rewrite optr_eqb_refl, Ep in Ep'. cbn in Ep'. injection Ep' as <-. reflexivity. }
      rewrite Efp. eapply path_snoc with (h := h) (cq := with_lk (fun k => lset_par (Some p) (lset_prev (Some z) k)) cq).
      * exact P1.
      * exact Nd.
      * intros x c Hx E. apply Nz; [exact E|intros ->|rewrite El; intro X; injection X as ->].
        -- assert (Y : parent_of h q = Some p) by (apply Par, in_or_app; tauto). unfold parent_of in Y. rewrite Eq in Y. congruence.
        -- apply (nodup_app_disj _ _ x Nd Hx). left. reflexivity.
      * rewrite B. destruct (Pos.eqb_spec z q); [contradiction|]. rewrite Pos.eqb_refl, Ez. cbn. eauto.
      * rewrite B, Pos.eqb_refl, Eq. reflexivity.
      * cbn. exact Nxq.
  - intros x l Hx NAx Chx. pose proof Chx as (cx & Ex & Px & _ & _ & Parx).
    destruct (Fst x cx Ex Hx) as (cx' & Ex' & Fx' & Dx').
    assert (Ax : is_attr (dat cx) = false).
    { destruct (is_attr (dat cx)) eqn:E; [|reflexivity]. exfalso. apply NAx. exists cx. auto. }
    assert (Path' : path h' (l_first (lk cx')) l).
    { rewrite Fx'. eapply path_same; [exact Px|]. intros y cy Hy Ey. apply Nz; [exact Ey|intros ->|intro X].
      - apply Parx in Hy. unfold parent_of in Hy. rewrite Eq in Hy. congruence.
      - apply Parx in Hy. rewrite El in X. assert (Y : In y cs).
        { destruct (snoc_cases cs) as [->|(l2 & z & ->)]; [discriminate|]. rewrite lasto_snoc in X. injection X as ->. apply in_elt. }
        apply Par in Y. congruence. }
    eapply children_by_path; [exact C|exact Ex'|congruence|exact Path'].
  - intro x. unfold data_of. destruct (hget h x) as [c|] eqn:E.
    + destruct (grown_dat _ _ _ _ _ _ Gr E) as (c' & E' & D' & _). rewrite E'. cbn. congruence.
    + destruct (hget h' x) as [c'|] eqn:E'; [|reflexivity]. exfalso. apply (grown_live _ _ _ _ x Gr); congruence.
  - intro x. destruct (hget h x) as [c|] eqn:E.
    + destruct (grown_dat _ _ _ _ _ _ Gr E) as (c' & E' & _ & D'). rewrite E'. cbn. congruence.
    + destruct (hget h' x) as [c'|] eqn:E'; [|reflexivity]. exfalso. apply (grown_live _ _ _ _ x Gr); congruence.
  - intros x Hx.
    assert (Hxq : x <> q).
    { intros ->. destruct Hx as (c & E & Hx). rewrite Eq in E. injection E as <-. destruct Hx as [Hx|(r & d & Hx & _)]; congruence. }
    assert (Hxp : x <> p) by (intros ->; contradiction).
    destruct (l_last (lk cp)) as [z|].
    + destruct G as [_ B]. rewrite B. peq; try contradiction.
      * exfalso. apply (NAk z); [|exact Hx]. destruct (snoc_cases cs) as [->|(l2 & y & ->)]; [discriminate|].
        rewrite lasto_snoc in El. injection El as ->. apply in_elt.
      * cbn [optr_eqb]. peq; [contradiction|reflexivity].
    + destruct G as [_ B]. rewrite B. peq; try contradiction. reflexivity.
Qed.

(* ---- AddChild ---- *)
Lemma kids_not_attr h F G p cs : forest h F G -> children h p cs -> ~ in_attr h p -> forall x, In x cs -> ~ in_attr h x.
Proof.
  intros FH Ch NA x Hx. apply (children_in _ _ _ _ Ch) in Hx. unfold parent_of in Hx.
  destruct (hget h x) as [c|] eqn:E; [|discriminate]. intros (c' & E' & H). rewrite E in E'. injection E' as <-.
  destruct H as [H|(r & d & H1 & H2 & H3)].
  - destruct (forest_live _ _ _ _ _ FH E) as [X|[[_ X]|(a & ca & s & _ & _ & _ & X & _)]].
    + destruct (forest_sub _ _ _ _ FH X) as (a & k & par & pv & nx & L & _).
      rewrite (node_not_attr _ _ _ _ _ _ _ L (or_introl eq_refl) E) in H. discriminate.
    + congruence.
    + rewrite X in H. discriminate.
  - apply NA. rewrite Hx in H1. injection H1 as <-. exists d. auto.
Qed.
Lemma kind_some h p c : hget h p = Some c -> kind h p = Some (typeOf (dat c)).
Proof. intro E. unfold kind, data_of. rewrite E. reflexivity. Qed.
Lemma text_kind h p s : text_at h p s -> exists c, hget h p = Some c /\ dat c = DText s.
Proof. apply data_of_some. Qed.
Lemma leaf_kind d : no_kids_data d = true <-> typeOf d = TextNode \/ typeOf d = CommentNode.
Proof. destruct d; cbn; split; intro H; try discriminate; try tauto; destruct H; discriminate. Qed.

Lemma AddChild_appends h p q cs :
  sound h -> attachable h p q -> children h p cs ->
  kind h p <> Some TextNode -> kind h p <> Some CommentNode ->
  (forall l, lasto cs = Some l ->
     kind h l <> Some DocumentNode /\ ~ (kind h l = Some TextNode /\ kind h q = Some TextNode)) ->
  exists h', AddChild p q h = (Ret tt, h') /\ only_children h p (cs ++ [q]) h'.
Proof.
  intros R A Ch K1 K2 Hl. pose proof R as (F & G & FH).
  destruct (AddChild_forest _ _ _ _ _ FH A) as (r & h' & Rn & Ef & F' & FH').
  pose proof A as ((cp & Ep) & NA & Hq & NAn).
  assert (Nk : no_kids_data (dat cp) = false).
  { destruct (no_kids_data (dat cp)) eqn:E; [|reflexivity]. apply leaf_kind in E.
    rewrite (kind_some _ _ _ Ep) in K1, K2. destruct E as [E|E]; rewrite E in *; congruence. }
  pose proof (children_last _ _ _ _ Ch Ep) as El.
  destruct Ef as [c1 c2 s t h' E1 E2 D1 D2 Rd|c1 c2 s t h' E1 E2 D1 D2 Rd|c1 c2 e E1 E2 D1 D2|c1 c2 cl l s t h' E1 D0 L1 E3 E2 D1 D2 Rd|c1 cl l e E1 D0 L1 E3 D1|c1 c2 h' E1 E2 D0 NT Gr];
    rewrite Ep in E1; injection E1 as <-; try (rewrite D1 in Nk; discriminate).
  - exfalso. rewrite El in L1. destruct (Hl l L1) as [_ X]. apply X. rewrite (kind_some _ _ _ E3), (kind_some _ _ _ E2), D1, D2. auto.
  - exfalso. rewrite El in L1. destruct (Hl l L1) as [X _]. apply X. rewrite (kind_some _ _ _ E3), D1. reflexivity.
  - exists h'. split; [exact Rn|]. apply grown_children; try assumption.
    + eapply forest_consistent, FH'.
    + intros ->. apply NAn. constructor.
    + eapply kids_not_attr; eassumption.
Qed.
Lemma AddChild_merges h p q cs l s t :
  sound h -> attachable h p q -> children h p (cs ++ [l]) -> text_at h l s -> text_at h q t ->
  exists h', AddChild p q h = (Ret tt, h') /\ only_data h l (DText (s ++ t)) h'.
Proof.
  intros R A Ch Tl Tq. pose proof R as (F & G & FH).
  destruct (AddChild_forest _ _ _ _ _ FH A) as (r & h' & Rn & Ef & F' & FH').
  pose proof A as ((cp & Ep) & NA & Hq & NAn).
  destruct (text_kind _ _ _ Tl) as (cl & El & Dl). destruct (text_kind _ _ _ Tq) as (cq & Eq & Dq).
  pose proof (children_last _ _ _ _ Ch Ep) as Ell. rewrite lasto_snoc in Ell.
  assert (Nk : no_kids_data (dat cp) = false).
  { (* a leaf has no children *)
    pose proof (forest_node _ _ _ _ _ FH Ep NA) as Hp. destruct (forest_sub _ _ _ _ FH Hp) as (a & k & par & pv & nx & L & _).
    apply linked_eq in L as [(c & M1 & M2 & M3) _]. rewrite Ep in M1. injection M1 as <-.
    rewrite M2 in Ell. cbn [l_last] in Ell. destruct (dat cp); cbn in *; try reflexivity; destruct M3 as [_ ->]; discriminate. }
  destruct Ef as [c1 c2 s' t' h' E1 E2 D1 D2 Rd|c1 c2 s' t' h' E1 E2 D1 D2 Rd|c1 c2 e E1 E2 D1 D2|c1 c2 cl' l' s' t' h' E1 D0 L1 E3 E2 D1 D2 Rd|c1 cl' l' e E1 D0 L1 E3 D1|c1 c2 h' E1 E2 D0 NT Gr];
    rewrite Ep in E1; injection E1 as <-; try (rewrite D1 in Nk; discriminate).
  - rewrite Ell in L1. injection L1 as <-. rewrite El in E3. injection E3 as <-. rewrite Eq in E2. injection E2 as <-.
    rewrite Dl in D1. injection D1 as <-. rewrite Dq in D2. injection D2 as <-.
    exists h'. split; [exact Rn|]. eapply redata_only; eassumption.
  - rewrite Ell in L1. injection L1 as <-. rewrite El in E3. injection E3 as <-. rewrite Dl in D1. discriminate.
  - exfalso. rewrite Eq in E2. injection E2 as <-. apply (NT l cl Ell El). rewrite Dl, Dq. auto.
Qed.
Lemma AddChild_leaf h p q :
  sound h -> attachable h p q -> kind h p = Some TextNode \/ kind h p = Some CommentNode ->
  (forall s t, text_at h p s -> text_at h q t ->
     exists h', AddChild p q h = (Ret tt, h') /\ only_data h p (DText (s ++ t)) h') /\
  (forall s t, comment_at h p s -> comment_at h q t ->
     exists h', AddChild p q h = (Ret tt, h') /\ only_data h p (DComment (s ++ t)) h') /\
  (kind h p <> kind h q -> exists e, AddChild p q h = (Fail e, h)).
Proof.
  intros R A Kp. pose proof R as (F & G & FH).
  destruct (AddChild_forest _ _ _ _ _ FH A) as (r & h' & Rn & Ef & _).
  pose proof A as ((cp & Ep) & _ & (cq & Eq & _) & _).
  assert (Nk : no_kids_data (dat cp) = true).
  { apply leaf_kind. rewrite (kind_some _ _ _ Ep) in Kp. destruct Kp as [X|X]; injection X as ->; auto. }
  refine (conj _ (conj _ _)).
  - intros s t Tp Tq. destruct (text_kind _ _ _ Tp) as (c1 & E1 & D1), (text_kind _ _ _ Tq) as (c2 & E2 & D2).
    rewrite Ep in E1. injection E1 as <-. rewrite Eq in E2. injection E2 as <-.
    destruct Ef; repeat match goal with H : hget h p = Some _ |- _ => rewrite Ep in H; injection H as <- | H : hget h q = Some _ |- _ => rewrite Eq in H; injection H as <- end; try congruence.
    + exists h'. split; [exact Rn|]. eapply redata_only; [exact Ep|]. congruence.
    + rewrite D1, D2 in *. cbn in *. congruence.
  - intros s t Tp Tq. destruct (data_of_some _ _ _ Tp) as (c1 & E1 & D1), (data_of_some _ _ _ Tq) as (c2 & E2 & D2).
    rewrite Ep in E1. injection E1 as <-. rewrite Eq in E2. injection E2 as <-.
    destruct Ef; repeat match goal with H : hget h p = Some _ |- _ => rewrite Ep in H; injection H as <- | H : hget h q = Some _ |- _ => rewrite Eq in H; injection H as <- end; try congruence.
    + exists h'. split; [exact Rn|]. eapply redata_only; [exact Ep|]. congruence.
    + rewrite D1, D2 in *. cbn in *. congruence.
  - intro K. rewrite (kind_some _ _ _ Ep), (kind_some _ _ _ Eq) in K.
    destruct Ef; repeat match goal with H : hget h p = Some _ |- _ => rewrite Ep in H; injection H as <- | H : hget h q = Some _ |- _ => rewrite Eq in H; injection H as <- end; try congruence.
    + exfalso. apply K. rewrite H1, H2. reflexivity.
    + exfalso. apply K. rewrite H1, H2. reflexivity.
    + eauto.
Qed.

(* ---- AddSibling ---- *)
Lemma AddSibling_appends h p q y cs :
  sound h -> attachable h p q -> children h y cs -> In p cs -> ~ in_attr h y ->
  kind h p <> Some DocumentNode -> ~ (kind h p = Some TextNode /\ kind h q = Some TextNode) ->
  exists h', AddSibling p q h = (Ret tt, h') /\ only_children h y (cs ++ [q]) h'.
Proof.
  intros R A Ch Hp NAy K1 K2. pose proof R as (F & G & FH).
  destruct (AddSibling_forest _ _ _ _ _ FH A) as (r & h' & Rn & Ef & F' & FH').
  pose proof A as ((cp & Ep) & NA & Hq & NAn). pose proof Hq as (cq & Eq & _).
  assert (Pp : l_par (lk cp) = Some y).
  { apply (children_in _ _ _ _ Ch) in Hp. unfold parent_of in Hp. rewrite Ep in Hp. exact Hp. }
  destruct Ef as [c1 c2 s t h' E1 E2 D1 D2 Rd|c1 e E1 D1|c1 c2 h' E1 E2 D1 NT J].
  - exfalso. apply K2. rewrite (kind_some _ _ _ E1), (kind_some _ _ _ E2), D1, D2. auto.
  - exfalso. apply K1. rewrite (kind_some _ _ _ E1), D1. reflexivity.
  - exists h'. split; [exact Rn|]. destruct J as (c3 & E3 & J). rewrite Ep in E3. injection E3 as <-. rewrite Pp in J.
    apply grown_children; try assumption.
    + eapply forest_consistent, FH'.
    + intros ->. apply NAn. econstructor; [exact Ep|exact Pp|constructor].
    + eapply kids_not_attr; eassumption.
Qed.
Lemma AddSibling_merges h p q s t :
  sound h -> attachable h p q -> text_at h p s -> text_at h q t ->
  exists h', AddSibling p q h = (Ret tt, h') /\ only_data h p (DText (s ++ t)) h'.
Proof.
  intros R A Tp Tq. pose proof R as (F & G & FH).
  destruct (AddSibling_forest _ _ _ _ _ FH A) as (r & h' & Rn & Ef & _).
  destruct (text_kind _ _ _ Tp) as (cp & Ep & Dp), (text_kind _ _ _ Tq) as (cq & Eq & Dq).
  destruct Ef; repeat match goal with H : hget h p = Some _ |- _ => rewrite Ep in H; injection H as <- | H : hget h q = Some _ |- _ => rewrite Eq in H; injection H as <- end.
  - exists h'. split; [exact Rn|]. eapply redata_only; [exact Ep|]. congruence.
  - rewrite Dp in *. discriminate.
  - exfalso. match goal with H : ~ (_ /\ _) |- _ => apply H end. rewrite Dp, Dq. auto.
Qed.
Lemma AddChild_after_document h p q cs l :
  children h p (cs ++ [l]) -> kind h l = Some DocumentNode -> kind h p <> Some TextNode -> kind h p <> Some CommentNode ->
  exists e, AddChild p q h = (Fail e, h).
Proof.
  intros Ch K K1 K2. pose proof Ch as (cp & Ep & _). pose proof (children_last _ _ _ _ Ch Ep) as El. rewrite lasto_snoc in El.
  unfold kind, data_of in K. destruct (hget h l) as [cl|] eqn:Ecl; [|discriminate]. cbn in K. injection K as K.
  apply doc_type in K as (v & e & s & i & x & D). rewrite (kind_some _ _ _ Ep) in K1, K2.
  assert (X : exists e', addChild p q h = (Fail e', h)).
  { unfold addChild. rewrite (bind_getc _ _ _ _ Ep). cbv beta. rewrite El. unfold AddSibling. eexists.
    apply hbind_fail. rewrite (bind_getc _ _ _ _ Ecl). cbv beta. rewrite D. reflexivity. }
  unfold AddChild. rewrite (bind_getc _ _ _ _ Ep). cbv beta. destruct (dat cp); try exact X; exfalso; [apply K1|apply K2]; reflexivity.
Qed.

(* Replace and SetDocumentElement. *)
From Coq Require Import FMapPositive Permutation.
From Verif Require Import Base Utf8 Utf8Proofs Escape Scan Heap TreeShape TreeOps Forest ForestOps ForestAdd ForestAttr History TreeCalls.

(* ---- the specification ---- *)

(* the sibling list under p is l, whichever links are followed *)
Definition sibling_list (h : heap) (p : ptr) (l : list ptr) : Prop :=
  exists c, hget h p = Some c /\ path h (l_first (lk c)) l /\ rpath h (l_last (lk c)) (rev l) /\
    NoDup l /\ forall x, In x l -> parent_of h x = Some p.
(* Among the children a ++ o :: b of p, q has taken the place of o.  o itself
   keeps its links; everything else is as it was. *)
Definition substituted (h : heap) (p : ptr) (a : list ptr) (o : ptr) (b : list ptr) (q : ptr) (h' : heap) : Prop :=
  sibling_list h' p (a ++ q :: b) /\
  (forall x, parent_of h' x = Some p -> In x (a ++ q :: b) \/ x = o) /\
  hget h' o = hget h o /\
  (forall x l, x <> p -> ~ in_attr h x -> children h x l -> children h' x l) /\
  (forall x, data_of h' x = data_of h x) /\
  (forall x, option_map owner (hget h' x) = option_map owner (hget h x)) /\
  (forall x, in_attr h x -> hget h' x = hget h x).

(* ---- lists ---- *)
Lemma split_mid {A} (a : list A) q b : forall l1 x l2, a ++ q :: b = l1 ++ x :: l2 ->
  (exists m, a = l1 ++ x :: m /\ l2 = m ++ q :: b) \/ (l1 = a /\ x = q /\ l2 = b) \/
  (exists m, l1 = a ++ q :: m /\ b = m ++ x :: l2).
Proof.
  induction a as [|y a IH]; intros l1 x l2 E; cbn [app] in E.
  - destruct l1 as [|z l1]; cbn [app] in E; injection E as -> E.
    + right. left. auto.
    + right. right. exists l1. auto.
  - destruct l1 as [|z l1]; cbn [app] in E; injection E as -> E.
    + left. exists a. auto.
    + destruct (IH _ _ _ E) as [(m & -> & ->)|[(-> & -> & ->)|(m & -> & ->)]].
      * left. exists m. auto.
      * right. left. auto.
      * right. right. exists m. auto.
Qed.
Lemma lasto_in l z : lasto l = Some z -> In z l.
Proof. destruct (snoc_cases l) as [->|(k & x & ->)]; [discriminate|]. rewrite lasto_snoc. intro E. injection E as ->. apply in_elt. Qed.
Lemma lasto_mid l x m : lasto (l ++ x :: m) = lsto m (Some x).
Proof.
  destruct (snoc_cases m) as [->|(k & y & ->)]; [rewrite lasto_snoc; reflexivity|].
  unfold lsto. rewrite app_comm_cons, app_assoc, !lasto_snoc. reflexivity.
Qed.

Lemma path_splits h l : forall o, path h o l <->
  o = hd_error l /\ forall l1 x l2, l = l1 ++ x :: l2 -> exists c, hget h x = Some c /\ l_next (lk c) = hd_error l2.
Proof.
  induction l as [|y r IH]; intro o.
  - split; [intro P; inversion P; split; [reflexivity|intros [|z l1] x l2 E; discriminate]|intros [-> _]; constructor].
  - split.
    + intro P. inversion P as [|p c l' E1 P1]; subst. apply IH in P1 as [H1 H2]. split; [reflexivity|].
      intros [|z l1] x l2 E; cbn [app] in E; injection E as -> E; subst; [eauto|]. eapply H2. reflexivity.
    + intros [-> S]. destruct (S [] y r eq_refl) as (c & E & Nx). cbn [hd_error]. econstructor; [exact E|]. rewrite Nx.
      apply IH. split; [reflexivity|]. intros l1 x l2 E2. apply (S (y :: l1)). cbn. congruence.
Qed.
Lemma rpath_splits h l : forall o, rpath h o (rev l) <->
  o = lasto l /\ forall l1 x l2, l = l1 ++ x :: l2 -> exists c, hget h x = Some c /\ l_prev (lk c) = lasto l1.
Proof.
  induction l as [|y r IH] using rev_ind; intro o.
  - split; [intro P; inversion P; split; [reflexivity|intros [|z l1] x l2 E; discriminate]|intros [-> _]; constructor].
  - rewrite rev_app_distr. cbn [rev app]. rewrite lasto_snoc. split.
    + intro P. inversion P as [|p c l' E1 P1]; subst. apply IH in P1 as [H1 H2]. split; [reflexivity|].
      intros l1 x l2 E. destruct (split_mid r y [] l1 x l2 E) as [(m & -> & ->)|[(-> & -> & ->)|(m & _ & X)]].
      * eapply H2. reflexivity.
      * eauto.
      * destruct m; discriminate.
    + intros [-> S]. destruct (S r y [] eq_refl) as (c & E & Nx). econstructor; [exact E|]. rewrite Nx.
      apply IH. split; [reflexivity|]. intros l1 x l2 ->. apply (S l1 x (l2 ++ [y])). rewrite <- app_assoc. reflexivity.
Qed.

(* ---- replaceNode, cell by cell ---- *)
Definition relinked (h : heap) (pp : ptr) (pv nx : option ptr) (o q : ptr) (h' : heap) : Prop :=
  nxt h' = nxt h /\
  forall x, hget h' x =
    if Pos.eqb x q then option_map (with_lk (fun l => Lk (l_first l) (l_last l) (Some pp) nx pv)) (hget h q)
    else option_map (with_lk (fun l =>
      Lk (if Pos.eqb x pp && optr_eqb (l_first l) (Some o) then Some q else l_first l)
         (if Pos.eqb x pp && optr_eqb (l_last l) (Some o) then Some q else l_last l)
         (l_par l)
         (if optr_eqb (Some x) pv then Some q else l_next l)
         (if optr_eqb (Some x) nx then Some q else l_prev l))) (hget h x).

Lemma with_lk_id c f : f (lk c) = lk c -> with_lk f c = c.
Proof. destruct c as [l o d]. unfold with_lk. cbn. intros ->. reflexivity. Qed.
Lemma lk_eta l : Lk (l_first l) (l_last l) (l_par l) (l_next l) (l_prev l) = l.
Proof. destruct l. reflexivity. Qed.

Lemma stage_next h q cq nx : hget h q = Some cq -> l_next (lk cq) = None -> nx <> Some q ->
  (forall x, nx = Some x -> hget h x <> None) ->
  exists h1, (match nx with Some y => setNext q (Some y) ;; setPrev y (Some q) | None => hret tt end) h = (Ret tt, h1) /\
    nxt h1 = nxt h /\
    forall x, hget h1 x = if Pos.eqb x q then option_map (with_lk (lset_next nx)) (hget h x)
                          else if optr_eqb (Some x) nx then option_map (with_lk (lset_prev (Some q))) (hget h x)
                          else hget h x.
Proof.
  intros Eq Nq Hne Hl. destruct nx as [y|].
  - destruct (hget h y) as [cy|] eqn:Ey; [|exfalso; exact (Hl y eq_refl Ey)]. assert (y <> q) by congruence.
    eexists. split.
    + unfold setNext, setPrev. erewrite bind_upd; [|exact Eq]. apply upd_run. rewrite hget_hset_other; [exact Ey|congruence].
    + split; [reflexivity|]. intro x. rewrite !hget_hset. cbn [optr_eqb]. peq; try congruence; rewrite ?Eq, ?Ey; reflexivity.
  - exists h. split; [reflexivity|]. split; [reflexivity|]. intro x. cbn [optr_eqb]. peq; [|reflexivity].
    rewrite Eq. cbn. f_equal. symmetry. apply with_lk_id. unfold lset_next. rewrite <- Nq. apply lk_eta.
Qed.
Lemma stage_prev h q cq pv : hget h q = Some cq -> l_prev (lk cq) = None -> pv <> Some q ->
  (forall x, pv = Some x -> hget h x <> None) ->
  exists h1, (match pv with Some y => setPrev q (Some y) ;; setNext y (Some q) | None => hret tt end) h = (Ret tt, h1) /\
    nxt h1 = nxt h /\
    forall x, hget h1 x = if Pos.eqb x q then option_map (with_lk (lset_prev pv)) (hget h x)
                          else if optr_eqb (Some x) pv then option_map (with_lk (lset_next (Some q))) (hget h x)
                          else hget h x.
Proof.
  intros Eq Nq Hne Hl. destruct pv as [y|].
  - destruct (hget h y) as [cy|] eqn:Ey; [|exfalso; exact (Hl y eq_refl Ey)]. assert (y <> q) by congruence.
    eexists. split.
    + unfold setNext, setPrev. erewrite bind_upd; [|exact Eq]. apply upd_run. rewrite hget_hset_other; [exact Ey|congruence].
    + split; [reflexivity|]. intro x. rewrite !hget_hset. cbn [optr_eqb]. peq; try congruence; rewrite ?Eq, ?Ey; reflexivity.
  - exists h. split; [reflexivity|]. split; [reflexivity|]. intro x. cbn [optr_eqb]. peq; [|reflexivity].
    rewrite Eq. cbn. f_equal. symmetry. apply with_lk_id. unfold lset_prev. rewrite <- Nq. apply lk_eta.
Qed.
Lemma stage_if h (b : bool) p f c : hget h p = Some c ->
  exists h1, (if b then upd f p else hret tt) h = (Ret tt, h1) /\ nxt h1 = nxt h /\
    forall x, hget h1 x = if Pos.eqb x p then (if b then Some (f c) else Some c) else hget h x.
Proof.
  intro E. destruct b.
  - eexists. split; [apply upd_run, E|]. split; [reflexivity|]. intro x. apply hget_hset.
  - exists h. split; [reflexivity|]. split; [reflexivity|]. intro x. peq; congruence.
Qed.

Lemma replaceNode_run h o q co cq pp cp :
  hget h o = Some co -> hget h q = Some cq -> l_par (lk co) = Some pp -> hget h pp = Some cp ->
  l_next (lk cq) = None -> l_prev (lk cq) = None ->
  q <> o -> q <> pp -> o <> pp ->
  l_next (lk co) <> Some q -> l_prev (lk co) <> Some q -> l_next (lk co) <> Some o -> l_prev (lk co) <> Some o ->
  l_next (lk co) <> Some pp -> l_prev (lk co) <> Some pp ->
  (forall x, l_next (lk co) = Some x -> hget h x <> None) -> (forall x, l_prev (lk co) = Some x -> hget h x <> None) ->
  exists h', replaceNode o q h = (Ret tt, h') /\ relinked h pp (l_prev (lk co)) (l_next (lk co)) o q h'.
Proof.
  intros Eo Eq Pp Ep Nq Vq H1 H2 H3 H4 H5 H6 H7 H8 H9 L1 L2. unfold replaceNode.
  rewrite (bind_getc _ _ _ _ Eo). cbv beta.
  destruct (stage_next _ _ _ _ Eq Nq H4 L1) as (h1 & R1 & N1 & G1). rewrite (hbind_ret _ _ _ _ _ R1).
  assert (Eo1 : hget h1 o = Some co).
  { rewrite G1. peq; [congruence|]. rewrite optr_eqb_neq by congruence. exact Eo. }
  rewrite (bind_getc _ _ _ _ Eo1). cbv beta.
  assert (Eq1 : hget h1 q = Some (with_lk (lset_next (l_next (lk co))) cq)) by (rewrite G1, Pos.eqb_refl, Eq; reflexivity).
  assert (L2' : forall x, l_prev (lk co) = Some x -> hget h1 x <> None).
  { intros x Hx. specialize (L2 x Hx). rewrite G1. destruct (hget h x) as [c|] eqn:E; [|contradiction].
    destruct (Pos.eqb x q); [discriminate|]. destruct (optr_eqb _ _); discriminate. }
  destruct (stage_prev _ _ _ _ Eq1 Vq H5 L2') as (h2 & R2 & N2 & G2). rewrite (hbind_ret _ _ _ _ _ R2).
  assert (Eo2 : hget h2 o = Some co).
  { rewrite G2. peq; [congruence|]. rewrite optr_eqb_neq by congruence. exact Eo1. }
  rewrite (bind_getc _ _ _ _ Eo2). cbv beta. rewrite Pp.
  assert (Ep2 : hget h2 pp = Some cp).
  { rewrite G2, G1. peq; try congruence. rewrite !optr_eqb_neq by congruence. exact Ep. }
  rewrite (bind_getc _ _ _ _ Ep2). cbv beta. unfold setFirst, setLast, setPar.
  destruct (stage_if h2 (optr_eqb (l_first (lk cp)) (Some o)) pp (with_lk (lset_first (Some q))) cp Ep2) as (h3 & R3 & N3 & G3).
  rewrite (hbind_ret _ _ _ _ _ R3).
  set (cp3 := if optr_eqb (l_first (lk cp)) (Some o) then with_lk (lset_first (Some q)) cp else cp).
  assert (Ep3 : hget h3 pp = Some cp3).
  { rewrite G3, Pos.eqb_refl. unfold cp3. destruct (optr_eqb _ _); reflexivity. }
  rewrite (bind_getc _ _ _ _ Ep3). cbv beta.
  destruct (stage_if h3 (optr_eqb (l_last (lk cp3)) (Some o)) pp (with_lk (lset_last (Some q))) cp3 Ep3) as (h4 & R4 & N4 & G4).
  rewrite (hbind_ret _ _ _ _ _ R4).
  set (cq4 := with_lk (lset_prev (l_prev (lk co))) (with_lk (lset_next (l_next (lk co))) cq)).
  assert (Eq4 : hget h4 q = Some cq4).
  { rewrite G4, G3, G2, G1. peq; try congruence. rewrite Eq. reflexivity. }
  eexists. split; [apply upd_run, Eq4|]. split; [cbn [hset nxt]; congruence|].
  intro x. rewrite hget_hset. destruct (Pos.eqb_spec x q) as [->|Hxq].
  - rewrite Eq. cbn. unfold cq4. reflexivity.
  - rewrite G4. destruct (Pos.eqb_spec x pp) as [->|Hxp].
    + rewrite Ep. rewrite !(optr_eqb_neq (Some pp)) by congruence. cbn [option_map andb].
      assert (El : l_last (lk cp3) = l_last (lk cp)) by (unfold cp3; destruct (optr_eqb _ _); reflexivity). rewrite El.
      unfold cp3. destruct cp as [[fi la pa ne pr] ow da]. cbn [lk l_first l_last].
      unfold with_lk, lset_first, lset_last. cbn [lk l_first l_last l_par l_next l_prev owner dat].
      destruct (optr_eqb fi (Some o)), (optr_eqb la (Some o)); reflexivity.
    + rewrite G3. destruct (Pos.eqb_spec x pp); [contradiction|]. rewrite G2.
      destruct (Pos.eqb_spec x q); [contradiction|]. rewrite G1. destruct (Pos.eqb_spec x q); [contradiction|].
      destruct (hget h x) as [[[fi la pa ne pr] ow da]|]; [|destruct (optr_eqb (Some x) (l_prev (lk co))), (optr_eqb (Some x) (l_next (lk co))); reflexivity].
      cbn [andb option_map with_lk lk l_first l_last l_par l_next l_prev].
      destruct (optr_eqb (Some x) (l_prev (lk co))), (optr_eqb (Some x) (l_next (lk co))); reflexivity.
Qed.

(* ---- the effect on the lists ---- *)
Lemma hd_mid {A} (m : list A) x b : hd_error (m ++ x :: b) = match m with [] => Some x | y :: _ => Some y end.
Proof. destruct m; reflexivity. Qed.

Lemma relinked_substituted h p a o b q pv nx h' :
  consistent h -> children h p (a ++ o :: b) -> loose h q -> ~ in_attr h p -> p <> q ->
  (forall x, In x (a ++ o :: b) -> ~ in_attr h x) ->
  pv = lasto a -> nx = hd_error b ->
  relinked h p pv nx o q h' -> substituted h p a o b q h'.
Proof.
  intros C Ch (cq & Eq & Aq & Pq & Vq & Nq) NA Hpq NAk -> -> [_ G].
  pose proof Ch as (cp & Ep & Pa & Ra & Nd & Par).
  apply path_splits in Pa as [Fp Pa]. apply rpath_splits in Ra as [Lp Ra].
  assert (Qn : ~ In q (a ++ o :: b)).
  { intro X. apply Par in X. unfold parent_of in X. rewrite Eq in X. congruence. }
  assert (Pn : ~ In p (a ++ o :: b)).
  { intro X. apply Par in X. unfold parent_of in X. rewrite Ep in X. destruct (C p cp Ep) as [_ Gp].
    clear - Gp X Ep. induction Gp as [x c E Q|x c r E Q Gp IH]; rewrite E in Ep; injection Ep as <-.
    - congruence.
    - rewrite Q in X. injection X as ->. exact (IH E Q). }
  assert (Na : NoDup a) by exact (nodup_app_l _ _ Nd).
  assert (Ho : ~ In o a /\ ~ In o b).
  { apply NoDup_remove_2 in Nd. split; intro; apply Nd, in_or_app; tauto. }
  assert (Dj : forall x, In x a -> ~ In x b).
  { intros x X Y. apply (nodup_app_disj _ _ x Nd X). right. exact Y. }
  assert (Nb : NoDup b).
  { apply nodup_app_r in Nd. apply NoDup_cons_iff in Nd. tauto. }
  assert (Sub : forall x, In x a \/ In x b -> In x (a ++ o :: b)).
  { intros x [X|X]; apply in_or_app; [tauto|right; right; exact X]. }
  (* what a cell looks like afterwards *)
  assert (Cell : forall x c, hget h x = Some c -> x <> q -> exists c', hget h' x = Some c' /\ dat c' = dat c /\ owner c' = owner c /\
      l_par (lk c') = l_par (lk c) /\
      l_next (lk c') = (if optr_eqb (Some x) (lasto a) then Some q else l_next (lk c)) /\
      l_prev (lk c') = (if optr_eqb (Some x) (hd_error b) then Some q else l_prev (lk c)) /\
      (x <> p -> l_first (lk c') = l_first (lk c) /\ l_last (lk c') = l_last (lk c))).
  { intros x c E Hx. specialize (G x). destruct (Pos.eqb_spec x q) as [|_]; [contradiction|]. rewrite E in G. cbn [option_map] in G.
    eexists. split; [exact G|]. cbn [with_lk dat owner lk l_par l_next l_prev l_first l_last].
    repeat (split; [reflexivity|]). intro Hxp. destruct (Pos.eqb_spec x p); [contradiction|]. split; reflexivity. }
  assert (CellQ : hget h' q = Some (with_lk (fun l => Lk (l_first l) (l_last l) (Some p) (hd_error b) (lasto a)) cq)).
  { rewrite G, Pos.eqb_refl, Eq. reflexivity. }
  (* nodes outside the list keep their neighbours *)
  assert (Out : forall x, ~ In x a -> ~ In x b -> optr_eqb (Some x) (lasto a) = false /\ optr_eqb (Some x) (hd_error b) = false).
  { intros x X Y. split; apply optr_eqb_neq; intro E; symmetry in E.
    - apply X, lasto_in, E.
    - apply Y. destruct b; [discriminate|]. injection E as ->. left. reflexivity. }
  assert (Par' : forall x, x <> q -> parent_of h' x = parent_of h x).
  { intros x Hx. unfold parent_of. destruct (hget h x) as [c|] eqn:E.
    - destruct (Cell x c E Hx) as (c' & E' & _ & _ & P' & _). rewrite E'. exact P'.
    - rewrite G. destruct (Pos.eqb_spec x q); [contradiction|]. rewrite E. reflexivity. }
  assert (ParQ : parent_of h' q = Some p) by (unfold parent_of; rewrite CellQ; reflexivity).
  refine (conj _ (conj _ (conj _ (conj _ (conj _ (conj _ _)))))).
  - (* the list *)
    destruct (Cell p cp Ep) as (cp' & Ep' & _ & _ & _ & _ & _ & _); [congruence|].
    exists cp'. split; [exact Ep'|].
    assert (Ef : l_first (lk cp') = hd_error (a ++ q :: b) /\ l_last (lk cp') = lasto (a ++ q :: b)).
    { specialize (G p). rewrite Ep' in G. destruct (Pos.eqb_spec p q); [contradiction|]. rewrite Ep, Pos.eqb_refl in G. cbn in G.
      injection G as ->. cbn [with_lk lk l_first l_last]. rewrite Fp, Lp. rewrite !hd_mid, !lasto_mid. split.
      - destruct a as [|y a']; [cbn; rewrite Pos.eqb_refl; reflexivity|].
        rewrite optr_eqb_neq; [reflexivity|]. intro E. injection E as ->. apply (proj1 Ho). left. reflexivity.
      - unfold lsto. destruct (lasto b) as [z|] eqn:El.
        + rewrite optr_eqb_neq; [reflexivity|]. intro E. injection E as ->. apply (proj2 Ho), lasto_in, El.
        + cbn. rewrite Pos.eqb_refl. reflexivity. }
    destruct Ef as [-> ->]. refine (conj _ (conj _ (conj _ _))).
    + apply path_splits. split; [reflexivity|]. intros l1 x l2 E.
      destruct (split_mid _ _ _ _ _ _ E) as [(m & Ea & ->)|[(-> & -> & ->)|(m & -> & Eb)]].
      * assert (Hx : In x a) by (rewrite Ea; apply in_elt).
        destruct (Pa l1 x (m ++ o :: b)) as (c & Ex & Nx); [rewrite Ea, <- app_assoc; reflexivity|].
        assert (Hxq : x <> q) by (intros ->; apply Qn, Sub; tauto).
        destruct (Cell x c Ex Hxq) as (c' & E' & _ & _ & _ & Nx' & _). exists c'. split; [exact E'|]. rewrite Nx', Nx, !hd_mid.
        rewrite Ea, lasto_mid. destruct m as [|y m]; [cbn; rewrite Pos.eqb_refl; reflexivity|].
        rewrite optr_eqb_neq; [reflexivity|]. unfold lsto. destruct (lasto (y :: m)) as [z|] eqn:El; [|destruct (snoc_cases (y :: m)) as [X|(k & z & X)]; [discriminate|rewrite X, lasto_snoc in El; discriminate]].
        intro X. injection X as <-. apply lasto_in in El. rewrite Ea in Na. apply NoDup_remove_2 in Na. apply Na, in_or_app. right. exact El.
      * exists (with_lk (fun l => Lk (l_first l) (l_last l) (Some p) (hd_error b) (lasto a)) cq). split; [exact CellQ|reflexivity].
      * assert (Hx : In x b) by (rewrite Eb; apply in_elt).
        destruct (Pa (a ++ o :: m) x l2) as (c & Ex & Nx); [rewrite Eb, <- app_assoc; reflexivity|].
        assert (Hxq : x <> q) by (intros ->; apply Qn, Sub; tauto).
        destruct (Cell x c Ex Hxq) as (c' & E' & _ & _ & _ & Nx' & _). exists c'. split; [exact E'|]. rewrite Nx'.
        rewrite optr_eqb_neq; [exact Nx|]. intro X. symmetry in X. apply lasto_in in X. exact (Dj x X Hx).
    + apply rpath_splits. split; [reflexivity|]. intros l1 x l2 E.
      destruct (split_mid _ _ _ _ _ _ E) as [(m & Ea & ->)|[(-> & -> & ->)|(m & -> & Eb)]].
      * assert (Hx : In x a) by (rewrite Ea; apply in_elt).
        destruct (Ra l1 x (m ++ o :: b)) as (c & Ex & Nx); [rewrite Ea, <- app_assoc; reflexivity|].
        assert (Hxq : x <> q) by (intros ->; apply Qn, Sub; tauto).
        destruct (Cell x c Ex Hxq) as (c' & E' & _ & _ & _ & _ & Nx' & _). exists c'. split; [exact E'|]. rewrite Nx'.
        rewrite optr_eqb_neq; [exact Nx|]. intro X. apply (Dj x Hx). destruct b; [discriminate|]. injection X as ->. left. reflexivity.
      * exists (with_lk (fun l => Lk (l_first l) (l_last l) (Some p) (hd_error b) (lasto a)) cq). split; [exact CellQ|reflexivity].
      * assert (Hx : In x b) by (rewrite Eb; apply in_elt).
        destruct (Ra (a ++ o :: m) x l2) as (c & Ex & Nx); [rewrite Eb, <- app_assoc; reflexivity|].
        assert (Hxq : x <> q) by (intros ->; apply Qn, Sub; tauto).
        destruct (Cell x c Ex Hxq) as (c' & E' & _ & _ & _ & _ & Nx' & _). exists c'. split; [exact E'|]. rewrite Nx', Nx, !lasto_mid.
        rewrite Eb, hd_mid. destruct m as [|y m]; [cbn; rewrite Pos.eqb_refl; reflexivity|].
        rewrite optr_eqb_neq; [|intro X; injection X as ->; rewrite Eb in Nb; apply NoDup_remove_2 in Nb; apply Nb; left; reflexivity].
        unfold lsto. destruct (lasto (y :: m)) as [z|] eqn:El; [reflexivity|].
        destruct (snoc_cases (y :: m)) as [X|(k & z & X)]; [discriminate|rewrite X, lasto_snoc in El; discriminate].
    + apply NoDup_remove in Nd as [Nd _]. clear - Nd Qn. revert Nd Qn. induction a as [|y a IH]; cbn; intros Nd Qn.
      * constructor; [intro; apply Qn; tauto|exact Nd].
      * apply NoDup_cons_iff in Nd as [N1 N2]. constructor.
        -- intro X. apply in_app_or in X as [X|[<-|X]]; [apply N1, in_or_app; tauto|apply Qn; tauto|apply N1, in_or_app; tauto].
        -- apply IH; [exact N2|]. tauto.
    + intros x X. destruct (Pos.eqb_spec x q) as [->|Hxq]; [exact ParQ|]. rewrite Par' by exact Hxq. apply Par.
      apply in_app_or in X as [X|[X|X]]; [apply Sub; tauto|congruence|apply Sub; tauto].
  - intros x X. destruct (Pos.eqb_spec x q) as [->|Hxq]; [left; apply in_elt|]. rewrite Par' in X by exact Hxq. apply Par in X.
    apply in_app_or in X as [X|[->|X]]; [left; apply in_or_app; tauto|tauto|left; apply in_or_app; right; right; exact X].
  - destruct (hget h o) as [co|] eqn:Eo.
    + rewrite G. destruct (Pos.eqb_spec o q) as [->|]; [exfalso; apply Qn, in_elt|]. rewrite Eo. cbn [option_map]. f_equal.
      apply with_lk_id. destruct (Out o (proj1 Ho) (proj2 Ho)) as [-> ->].
      destruct (Pos.eqb_spec o p) as [->|]; [exfalso; apply Pn, in_elt|]. cbn [andb]. apply lk_eta.
    + rewrite G. destruct (Pos.eqb_spec o q) as [->|]; [congruence|]. rewrite Eo. reflexivity.
  - intros x l Hx NAx Chx. pose proof Chx as (cx & Ex & Px & Rx & Ndx & Parx).
    assert (Dif : forall y, In y l -> ~ In y a /\ ~ In y b /\ y <> q).
    { intros y Hy. apply Parx in Hy. refine (conj _ (conj _ _)); intro X.
      - assert (Y : parent_of h y = Some p) by (apply Par, Sub; tauto). congruence.
      - assert (Y : parent_of h y = Some p) by (apply Par, Sub; tauto). congruence.
      - subst y. unfold parent_of in Hy. rewrite Eq in Hy. congruence. }
    assert (Ex' : exists cx', hget h' x = Some cx' /\ l_first (lk cx') = l_first (lk cx) /\ l_last (lk cx') = l_last (lk cx)).
    { destruct (Pos.eqb_spec x q) as [->|Hxq].
      - rewrite Eq in Ex. injection Ex as <-. eexists. split; [exact CellQ|]. split; reflexivity.
      - destruct (Cell x cx Ex Hxq) as (c' & E' & _ & _ & _ & _ & _ & F'). exists c'. split; [exact E'|]. apply F', Hx. }
    destruct Ex' as (cx' & E' & F' & L'). exists cx'. split; [exact E'|]. rewrite F', L'. refine (conj _ (conj _ (conj Ndx _))).
    + apply path_splits. apply path_splits in Px as [F1 P1]. split; [exact F1|]. intros l1 y l2 El.
      destruct (P1 l1 y l2 El) as (c & Ey & Ny). destruct (Dif y) as (D1 & D2 & D3); [rewrite El; apply in_elt|].
      destruct (Cell y c Ey D3) as (c' & Ey' & _ & _ & _ & N' & _). exists c'. split; [exact Ey'|].
      destruct (Out y D1 D2) as [O1 _]. rewrite N', O1. exact Ny.
    + apply rpath_splits. apply rpath_splits in Rx as [F1 P1]. split; [exact F1|]. intros l1 y l2 El.
      destruct (P1 l1 y l2 El) as (c & Ey & Ny). destruct (Dif y) as (D1 & D2 & D3); [rewrite El; apply in_elt|].
      destruct (Cell y c Ey D3) as (c' & Ey' & _ & _ & _ & _ & N' & _). exists c'. split; [exact Ey'|].
      destruct (Out y D1 D2) as [_ O1]. rewrite N', O1. exact Ny.
    + intro y. destruct (Pos.eqb_spec y q) as [->|Hyq]; [|rewrite Par' by exact Hyq; apply Parx].
      rewrite ParQ. split; [intro Hy; destruct (Dif q Hy) as (_ & _ & X); congruence|congruence].
  - intro x. unfold data_of. rewrite G. destruct (Pos.eqb_spec x q) as [->|]; [destruct (hget h q)|destruct (hget h x)]; reflexivity.
  - intro x. rewrite G. destruct (Pos.eqb_spec x q) as [->|]; [destruct (hget h q)|destruct (hget h x)]; reflexivity.
  - intros x Hx.
    assert (Hxq : x <> q).
    { intros ->. destruct Hx as (c & E & Hx). rewrite Eq in E. injection E as <-. destruct Hx as [Hx|(r & d & Hx & _)]; congruence. }
    assert (Hxp : x <> p) by (intros ->; contradiction).
    destruct (Out x) as [O1 O2]; [intro X; apply (NAk x); [apply Sub; tauto|exact Hx]..|].
    rewrite G. destruct (Pos.eqb_spec x q); [contradiction|]. destruct (hget h x) as [c|]; [|reflexivity]. cbn [option_map]. f_equal.
    apply with_lk_id. rewrite O1, O2. destruct (Pos.eqb_spec x p); [contradiction|]. cbn [andb]. apply lk_eta.
Qed.

(* Replace of a child by a node without relatives *)
Lemma Replace_relinks h F G p a o b q :
  forest h F G -> attachable h p q -> children h p (a ++ o :: b) -> kind h o <> Some DocumentNode ->
  exists h', Replace o q h = (Ret tt, h') /\ relinked h p (lasto a) (hd_error b) o q h'.
Proof.
  intros FH A Ch Ko. pose proof (forest_consistent _ _ _ FH) as C.
  pose proof A as ((cp & Ep) & NA & Hq & NAn). pose proof Hq as (cq & Eq & Aq & Pq & Vq & Nq).
  assert (Hpq : p <> q) by (intros ->; apply NAn; constructor).
  pose proof Ch as (cp' & Ep' & Pa & Ra & Nd & Par). rewrite Ep in Ep'. injection Ep' as <-.
  apply path_splits in Pa as [_ Pa]. apply rpath_splits in Ra as [_ Ra].
  destruct (Pa a o b eq_refl) as (co & Eo & No). destruct (Ra a o b eq_refl) as (co' & Eo' & Vo). rewrite Eo in Eo'. injection Eo' as <-.
  assert (Po : l_par (lk co) = Some p).
  { assert (X : parent_of h o = Some p) by (apply Par, in_elt). unfold parent_of in X. rewrite Eo in X. exact X. }
  assert (Qn : ~ In q (a ++ o :: b)).
  { intro X. apply Par in X. unfold parent_of in X. rewrite Eq in X. congruence. }
  assert (Pn : ~ In p (a ++ o :: b)).
  { intro X. apply Par in X. unfold parent_of in X. rewrite Ep in X. destruct (C p cp Ep) as [_ Gp].
    clear - Gp X Ep. induction Gp as [x c E Q|x c r E Q Gp IH]; rewrite E in Ep; injection Ep as <-.
    - congruence.
    - rewrite Q in X. injection X as ->. exact (IH E Q). }
  assert (Onn : ~ In o a /\ ~ In o b).
  { apply NoDup_remove_2 in Nd. split; intro; apply Nd, in_or_app; tauto. }
  assert (Ia : forall x, lasto a = Some x -> In x a) by (intro; apply lasto_in).
  assert (Ib : forall x, hd_error b = Some x -> In x b).
  { intros x X. destruct b; [discriminate|]. injection X as ->. left. reflexivity. }
  assert (Sub : forall x, In x a \/ In x b -> In x (a ++ o :: b)).
  { intros x [X|X]; apply in_or_app; [tauto|right; right; exact X]. }
  assert (Lv : forall x, In x (a ++ o :: b) -> hget h x <> None).
  { intros x X. apply Par in X. unfold parent_of in X. destruct (hget h x); [discriminate|discriminate X]. }
  destruct (replaceNode_run h o q co cq p cp) as (h' & Rn & Rl); try assumption;
    try (intros ->; first [apply Qn, in_elt|apply Pn, in_elt]); try congruence;
    rewrite ?No, ?Vo; try (intro X; first [apply Ia in X|apply Ib in X]; first [apply Qn, Sub; tauto|apply Pn, Sub; tauto|tauto]);
    try (intros x X; apply Lv, Sub; auto).
  exists h'. split.
  - unfold Replace. rewrite (bind_getc _ _ _ _ Eo). cbv beta. destruct (dat co) eqn:D; try exact Rn.
    exfalso. apply Ko. rewrite (kind_some _ _ _ Eo), D. reflexivity.
  - rewrite No, Vo in Rl. exact Rl.
Qed.
Lemma Replace_substitutes h p a o b q :
  sound h -> attachable h p q -> children h p (a ++ o :: b) -> kind h o <> Some DocumentNode ->
  exists h', Replace o q h = (Ret tt, h') /\ substituted h p a o b q h'.
Proof.
  intros R A Ch Ko. pose proof R as (F & G & FH).
  destruct (Replace_relinks _ _ _ _ _ _ _ _ FH A Ch Ko) as (h' & Rn & Rl). exists h'. split; [exact Rn|].
  pose proof A as (_ & NA & Hq & NAn).
  eapply relinked_substituted; try eassumption; try reflexivity.
  - exact (forest_consistent _ _ _ FH).
  - intros ->. apply NAn. constructor.
  - eapply kids_not_attr; eassumption.
Qed.

(* ---- SetDocumentElement ---- *)
Definition same_cells (h h' : heap) : Prop := forall x, hget h' x = hget h x.
Lemma path_cells h h' o l : same_cells h h' -> path h o l -> path h' o l.
Proof. intros S P. induction P as [|p c l E P IH]; econstructor; [rewrite S; exact E|exact IH]. Qed.
Lemma rpath_cells h h' o l : same_cells h h' -> rpath h o l -> rpath h' o l.
Proof. intros S P. induction P as [|p c l E P IH]; econstructor; [rewrite S; exact E|exact IH]. Qed.
Lemma children_cells h h' p cs : same_cells h h' -> children h p cs -> children h' p cs.
Proof.
  intros S (c & E & P & R & Nd & Par). exists c. rewrite S. refine (conj E (conj _ (conj _ (conj Nd _)))).
  - eapply path_cells; eassumption.
  - eapply rpath_cells; eassumption.
  - intro x. unfold parent_of. rewrite S. apply Par.
Qed.
Lemma consistent_cells h h' : same_cells h h' -> consistent h -> consistent h'.
Proof.
  intros S C p c E. rewrite S in E. destruct (C p c E) as [A G]. split.
  - intro X. destruct (A X) as (cs & Ch). exists cs. eapply children_cells; eassumption.
  - clear - S G. induction G as [p c E P|p c q E P G IH]; [eapply gr_top|eapply gr_up]; try rewrite S; eassumption.
Qed.
Lemma grown_fun h y q h1 h2 : grown h y q h1 -> grown h y q h2 -> same_cells h1 h2.
Proof.
  intros (c & E & G) (c' & E' & G') x. rewrite E in E'. injection E' as <-.
  destruct (l_last (lk c)); destruct G as [_ G], G' as [_ G']; rewrite G, G'; reflexivity.
Qed.

Definition is_elem (h : heap) (x : ptr) : bool :=
  match hget h x with Some c => typeOf (dat c) =? ElementNode | None => false end.
Lemma is_elem_kind h x : is_elem h x = true <-> kind h x = Some ElementNode.
Proof.
  unfold is_elem, kind, data_of. destruct (hget h x) as [c|]; cbn; [|split; discriminate].
  rewrite Z.eqb_eq. split; congruence.
Qed.
Lemma firstElement_run h l : forall n o, path h o l -> (List.length l <= n)%nat ->
  firstElement n o h = (Ret (find (is_elem h) l), h).
Proof.
  induction l as [|x r IH]; intros n o P B; inversion P as [|p c l' E P1]; subst.
  - destruct n; reflexivity.
  - destruct n as [|n]; [cbn in B; lia|]. cbn [firstElement find]. rewrite (bind_getc _ _ _ _ E). cbv beta. unfold is_elem at 1. rewrite E.
    destruct (typeOf (dat c) =? ElementNode); [reflexivity|]. apply IH; [exact P1|]. cbn in B. lia.
Qed.
Lemma find_first {A} (f : A -> bool) a o b : (forall x, In x a -> f x = false) -> f o = true -> find f (a ++ o :: b) = Some o.
Proof.
  intros Ha Ho. induction a as [|x a IH]; cbn; [rewrite Ho; reflexivity|]. rewrite Ha by (left; reflexivity).
  apply IH. intros y Hy. apply Ha. right. exact Hy.
Qed.
Lemma find_no {A} (f : A -> bool) a : (forall x, In x a -> f x = false) -> find f a = None.
Proof.
  intro Ha. induction a as [|x a IH]; cbn; [reflexivity|]. rewrite Ha by (left; reflexivity).
  apply IH. intros y Hy. apply Ha. right. exact Hy.
Qed.

Section SetDoc.
Variables (h : heap) (d r : ptr) (cs : list ptr) (cd cr : cell) (F : list (list ltree)) (G : list (ptr * list ptr)).
Hypothesis FH : forest h F G.
Hypothesis A : attachable h d r.
Hypothesis Ch : children h d cs.
Hypothesis Ed : hget h d = Some cd.
Hypothesis Er : hget h r = Some cr.
Let h0 := hset h r (with_lk (lset_par (Some d)) cr).

Lemma sd_neq : d <> r.
Proof. destruct A as (_ & _ & _ & N). intros <-. apply N. constructor. Qed.
Lemma sd_get x : hget h0 x = if Pos.eqb x r then Some (with_lk (lset_par (Some d)) cr) else hget h x.
Proof. apply hget_hset. Qed.
Lemma sd_r : ~ In r cs.
Proof.
  intro X. apply (children_in _ _ _ _ Ch) in X. unfold parent_of in X. rewrite Er in X.
  destruct A as (_ & _ & (c & E & _ & P & _) & _). congruence.
Qed.
Lemma sd_d : ~ In d cs.
Proof.
  intro X. apply (children_in _ _ _ _ Ch) in X. unfold parent_of in X. rewrite Ed in X.
  pose proof (forest_consistent _ _ _ FH) as C. destruct (C d cd Ed) as [_ Gp].
  clear - Gp X Ed. induction Gp as [x c E Q|x c q E Q Gp IH]; rewrite E in Ed; injection Ed as <-.
  - congruence.
  - rewrite Q in X. injection X as ->. exact (IH E Q).
Qed.
Lemma sd_old x : In x cs -> hget h0 x = hget h x.
Proof. intro Hx. rewrite sd_get. destruct (Pos.eqb_spec x r) as [->|]; [exfalso; exact (sd_r Hx)|reflexivity]. Qed.
Lemma sd_cd : hget h0 d = Some cd.
Proof. rewrite sd_get. destruct (Pos.eqb_spec d r); [exfalso; apply sd_neq; assumption|exact Ed]. Qed.
Lemma sd_path : path h0 (l_first (lk cd)) cs /\ NoDup cs /\ (List.length cs < size h0)%nat.
Proof.
  pose proof Ch as (c & E & P & R & Nd & Par). rewrite Ed in E. injection E as <-.
  assert (P0 : path h0 (l_first (lk cd)) cs).
  { eapply path_same; [exact P|]. intros x c Hx Ex. rewrite sd_old by exact Hx. eauto. }
  refine (conj P0 (conj Nd _)). apply path_size with (o := l_first (lk cd)); [|exact P0|exact Nd].
  pose proof (f_ok _ _ _ FH) as Hk. intros x c Ex. change (nxt h0) with (nxt h). rewrite sd_get in Ex.
  destruct (Pos.eqb_spec x r) as [->|]; [exact (Hk _ _ Er)|exact (Hk _ _ Ex)].
Qed.
Lemma sd_find : firstElement (size h0) (l_first (lk cd)) h0 = (Ret (find (is_elem h) cs), h0).
Proof.
  destruct sd_path as (P0 & _ & B). rewrite (firstElement_run h0 cs _ _ P0) by lia. do 2 f_equal.
  assert (X : forall x, In x cs -> is_elem h0 x = is_elem h x) by (intros x Hx; unfold is_elem; rewrite sd_old by exact Hx; reflexivity).
  clear - X. induction cs as [|x l IH]; [reflexivity|]. cbn. rewrite X by (left; reflexivity).
  destruct (is_elem h x); [reflexivity|]. apply IH. intros y Hy. apply X. right. exact Hy.
Qed.
Lemma sd_run : SetDocumentElement d r h =
  match find (is_elem h) cs with None => hignore (AddChild d r) h0 | Some o => Replace o r h0 end.
Proof.
  unfold SetDocumentElement, setPar. rewrite (bind_upd _ _ _ _ _ Er). fold h0. rewrite (bind_getc _ _ _ _ sd_cd). cbv beta.
  erewrite hbind_ret; [|exact sd_find]. destruct (find (is_elem h) cs); reflexivity.
Qed.
Lemma sd_grown h' : grown h0 d r h' -> grown h d r h'.
Proof.
  intros (c & E & Gr). rewrite sd_cd in E. injection E as <-. exists cd. split; [exact Ed|].
  destruct (l_last (lk cd)) as [z|]; destruct Gr as [N Gr]; (split; [exact N|]); intro x; rewrite Gr, !sd_get, Pos.eqb_refl, Er.
  - destruct (Pos.eqb_spec x r) as [->|]; [reflexivity|]. destruct (Pos.eqb_spec z r) as [->|]; [|reflexivity].
    destruct (Pos.eqb_spec x r) as [->|]; [congruence|reflexivity].
  - destruct (Pos.eqb_spec x r) as [->|]; [reflexivity|]. destruct (Pos.eqb_spec d r) as [X|]; [exfalso; exact (sd_neq X)|reflexivity].
Qed.
Lemma sd_relinked pv nx o h' : relinked h0 d pv nx o r h' -> relinked h d pv nx o r h'.
Proof.
  intros [N Gr]. split; [exact N|]. intro x. rewrite Gr, !sd_get, Pos.eqb_refl, Er.
  destruct (Pos.eqb_spec x r) as [->|]; reflexivity.
Qed.

Lemma sd_append : typeOf (dat cd) = DocumentNode -> typeOf (dat cr) <> TextNode ->
  (forall x, In x cs -> kind h x <> Some DocumentNode) ->
  exists h', hignore (AddChild d r) h0 = (Ret tt, h') /\ grown h d r h'.
Proof.
  intros Kd Kr Nd0. pose proof Ch as (c & E & P & R & Nd & Par). rewrite Ed in E. injection E as <-.
  pose proof (children_last _ _ _ _ Ch Ed) as El.
  assert (E0r : hget h0 r = Some (with_lk (lset_par (Some d)) cr)) by (rewrite sd_get, Pos.eqb_refl; reflexivity).
  assert (Run : exists h', addChild d r h0 = (Ret tt, h') /\ grown h0 d r h').
  { unfold addChild. rewrite (bind_getc _ _ _ _ sd_cd). cbv beta. unfold grown. rewrite El.
    destruct (snoc_cases cs) as [Ec|(l & z & Ec)]; rewrite Ec in El, P, Par |- *.
    - cbn [lasto]. unfold setFirst, setLast, setPar. erewrite bind_upd; [|exact sd_cd]. erewrite bind_upd; [|apply hget_hset_same].
      eexists. split.
      + apply upd_run. rewrite !hget_hset_other by (intro X; symmetry in X; exact (sd_neq X)). exact E0r.
      + exists cd. split; [exact sd_cd|]. rewrite El. split; [reflexivity|]. intro x. rewrite !hget_hset, sd_cd, E0r.
        pose proof sd_neq. peq; try congruence; reflexivity.
    - rewrite lasto_snoc in El |- *. assert (Hz : In z (l ++ [z])) by apply in_elt.
      assert (Oz : hget h0 z = hget h z) by (apply sd_old; rewrite Ec; exact Hz).
      apply path_splits in P as [_ P]. destruct (P l z [] eq_refl) as (cz & Ez & Nz). cbn [hd_error] in Nz.
      assert (Pz : l_par (lk cz) = Some d).
      { pose proof (proj1 (Par z) Hz) as X. unfold parent_of in X. rewrite Ez in X. exact X. }
      assert (Hzr : r <> z) by (intro X; apply sd_r; rewrite X, Ec; exact Hz).
      assert (Hzd : z <> d) by (intro X; apply sd_d; rewrite <- X, Ec; exact Hz).
      assert (Kz : typeOf (dat cz) <> DocumentNode).
      { intro X. apply (Nd0 z); [rewrite Ec; exact Hz|]. rewrite (kind_some _ _ _ Ez), X. reflexivity. }
      assert (Sib : AddSibling z r h0 = addSibling z r h0).
      { unfold AddSibling. rewrite (bind_getc _ _ _ _ (eq_trans Oz Ez)). cbv beta. destruct (dat cz) eqn:D; try reflexivity.
        - exfalso. apply Kz. reflexivity.
        - rewrite (bind_getc _ _ _ _ E0r). cbv beta. cbn [with_lk dat]. destruct (dat cr); try reflexivity. exfalso. apply Kr. reflexivity. }
      destruct (addSibling_run h0 z r [z] z cz (with_lk (lset_par (Some d)) cr)) as (h' & Ra & Ap); try assumption.
      + intros x c Ex. change (nxt h0) with (nxt h). pose proof (f_ok _ _ _ FH) as Hk. rewrite sd_get in Ex.
        destruct (Pos.eqb_spec x r) as [->|]; [exact (Hk _ _ Er)|exact (Hk _ _ Ex)].
      + econstructor; [rewrite Oz; exact Ez|]. rewrite Nz. constructor.
      + constructor; [intros []|constructor].
      + reflexivity.
      + rewrite Oz. exact Ez.
      + rewrite Pz. pose proof sd_neq. congruence.
      + congruence.
      + intros pp Hpp. rewrite Pz in Hpp. injection Hpp as <-. rewrite sd_cd. discriminate.
      + exists h'. rewrite Pz in Ap. split; [|exists cd; split; [exact sd_cd|rewrite El; exact Ap]].
        erewrite hbind_ret; [|rewrite Sib; exact Ra].
        destruct Ap as [_ Ap].
        assert (Er' : exists c', hget h' r = Some c' /\ dat c' = dat cr).
        { rewrite Ap, Pos.eqb_refl, E0r. cbn. eauto. }
        destruct Er' as (cr' & Er' & Dr'). rewrite (bind_getc _ _ _ _ Er'). cbv beta.
        assert (Ez' : exists c', hget h' z = Some c').
        { rewrite Ap. destruct (Pos.eqb_spec z r); [congruence|]. rewrite Pos.eqb_refl, Oz, Ez. cbn. eauto. }
        destruct Ez' as (cz' & Ez'). rewrite (bind_getc _ _ _ _ Ez'). cbv beta. apply Z.eqb_neq in Kr. rewrite Dr', Kr. reflexivity. }
  destruct Run as (h' & Rn & Gr). exists h'. split; [|apply sd_grown, Gr].
  apply hignore_ret. unfold AddChild. rewrite (bind_getc _ _ _ _ sd_cd). cbv beta. destruct (dat cd); try discriminate. exact Rn.
Qed.
End SetDoc.

Lemma SetDocumentElement_grows h F G d r cs :
  forest h F G -> attachable h d r -> kind h d = Some DocumentNode -> kind h r = Some ElementNode -> children h d cs ->
  (forall x, In x cs -> kind h x <> Some ElementNode /\ kind h x <> Some DocumentNode) ->
  exists h', SetDocumentElement d r h = (Ret tt, h') /\ grown h d r h'.
Proof.
  intros FH A Kd Kr Ch Nk.
  pose proof A as ((cd & Ed) & NA & Hr & NAn). pose proof Hr as (cr & Er & _).
  rewrite (kind_some _ _ _ Ed) in Kd. rewrite (kind_some _ _ _ Er) in Kr. injection Kd as Kd. injection Kr as Kr.
  rewrite (sd_run h d r cs cd cr F G FH A Ch Ed Er).
  rewrite find_no by (intros x Hx; destruct (is_elem h x) eqn:E; [apply is_elem_kind in E; destruct (Nk x Hx); contradiction|reflexivity]).
  destruct (sd_append h d r cs cd cr F G FH A Ch Ed Er Kd) as (h' & Rn & Gr); [rewrite Kr; discriminate|intros x Hx; apply Nk, Hx|].
  exists h'. split; [exact Rn|exact Gr].
Qed.
Lemma SetDocumentElement_appends h d r cs :
  sound h -> attachable h d r -> kind h d = Some DocumentNode -> kind h r = Some ElementNode -> children h d cs ->
  (forall x, In x cs -> kind h x <> Some ElementNode /\ kind h x <> Some DocumentNode) ->
  exists h', SetDocumentElement d r h = (Ret tt, h') /\ only_children h d (cs ++ [r]) h'.
Proof.
  intros R A Kd Kr Ch Nk. pose proof R as (F & G & FH).
  destruct (SetDocumentElement_grows _ _ _ _ _ _ FH A Kd Kr Ch Nk) as (h' & Rn & Gr). exists h'. split; [exact Rn|].
  pose proof A as ((cd & Ed) & NA & Hr & NAn). pose proof Hr as (cr & Er & _).
  rewrite (kind_some _ _ _ Ed) in Kd. rewrite (kind_some _ _ _ Er) in Kr. injection Kd as Kd. injection Kr as Kr.
  (* compare with AddChild on the heap as it was *)
  destruct (AddChild_forest _ _ _ _ _ FH A) as (o & h2 & Rn2 & Ef & F' & FH').
  assert (Gr2 : grown h d r h2).
  { destruct Ef as [c1 c2 s t h2 E1 E2 D1 D2 Rd|c1 c2 s t h2 E1 E2 D1 D2 Rd|c1 c2 e E1 E2 D1 D2|c1 c2 cl l s t h2 E1 D0 L1 E3 E2 D1 D2 Rd|c1 cl l e E1 D0 L1 E3 D1|c1 c2 h2 E1 E2 D0 NT Gr2];
      rewrite Ed in E1; injection E1 as <-; try exact Gr2; exfalso.
    - rewrite D1 in Kd. discriminate.
    - rewrite D1 in Kd. discriminate.
    - destruct (dat cd); discriminate.
    - rewrite Er in E2. injection E2 as <-. rewrite D2 in Kr. discriminate.
    - rewrite (children_last _ _ _ _ Ch Ed) in L1. apply lasto_in in L1. destruct (Nk l L1) as [_ X]. apply X.
      rewrite (kind_some _ _ _ E3), D1. reflexivity. }
  apply grown_children; try assumption.
  - eapply consistent_cells; [exact (grown_fun _ _ _ _ _ Gr2 Gr)|]. eapply forest_consistent, FH'.
  - intros ->. apply NAn. constructor.
  - eapply kids_not_attr; eassumption.
Qed.

Lemma SetDocumentElement_relinks h F G d r a o b :
  forest h F G -> attachable h d r -> kind h d = Some DocumentNode -> children h d (a ++ o :: b) ->
  (forall x, In x a -> kind h x <> Some ElementNode) -> kind h o = Some ElementNode ->
  exists h', SetDocumentElement d r h = (Ret tt, h') /\ relinked h d (lasto a) (hd_error b) o r h'.
Proof.
  intros FH A Kd Ch Na Ko.
  pose proof (forest_consistent _ _ _ FH) as C.
  pose proof A as ((cd & Ed) & NA & Hr & NAn). pose proof Hr as (cr & Er & Ar & Pr & Vr & Nr).
  rewrite (sd_run h d r _ cd cr F G FH A Ch Ed Er).
  rewrite find_first; [|intros x Hx; destruct (is_elem h x) eqn:E; [apply is_elem_kind in E; exfalso; exact (Na x Hx E)|reflexivity]|apply is_elem_kind, Ko].
  set (h0 := hset h r (with_lk (lset_par (Some d)) cr)).
  pose proof (sd_old h d r _ cr A Ch Er) as Old. pose proof (sd_cd h d r cd cr A Ed) as Ed0.
  pose proof (sd_r h d r _ cr A Ch Er) as Qn. pose proof (sd_d h d _ cd F G FH Ch Ed) as Pn.
  assert (Hne : d <> r) by (intros ->; apply NAn; constructor).
  specialize (Ed0 Er).
  fold h0 in Old, Ed0.
  assert (E0r : hget h0 r = Some (with_lk (lset_par (Some d)) cr)) by (unfold h0; apply hget_hset_same).
  pose proof Ch as (cd' & Ed' & Pa & Ra & Nd & Par). rewrite Ed in Ed'. injection Ed' as <-.
  apply path_splits in Pa as [_ Pa]. apply rpath_splits in Ra as [_ Ra].
  destruct (Pa a o b eq_refl) as (co & Eo & No). destruct (Ra a o b eq_refl) as (co' & Eo' & Vo). rewrite Eo in Eo'. injection Eo' as <-.
  assert (Po : l_par (lk co) = Some d).
  { assert (X : parent_of h o = Some d) by (apply Par, in_elt). unfold parent_of in X. rewrite Eo in X. exact X. }
  assert (Onn : ~ In o a /\ ~ In o b).
  { apply NoDup_remove_2 in Nd. split; intro; apply Nd, in_or_app; tauto. }
  assert (Ia : forall x, lasto a = Some x -> In x a) by (intro; apply lasto_in).
  assert (Ib : forall x, hd_error b = Some x -> In x b).
  { intros x X. destruct b; [discriminate|]. injection X as ->. left. reflexivity. }
  assert (Sub : forall x, In x a \/ In x b -> In x (a ++ o :: b)).
  { intros x [X|X]; apply in_or_app; [tauto|right; right; exact X]. }
  assert (Lv : forall x, In x (a ++ o :: b) -> hget h0 x <> None).
  { intros x X. rewrite Old by exact X. apply Par in X. unfold parent_of in X. destruct (hget h x); [discriminate|discriminate X]. }
  assert (Eo0 : hget h0 o = Some co) by (rewrite Old by apply in_elt; exact Eo).
  destruct (replaceNode_run h0 o r co (with_lk (lset_par (Some d)) cr) d cd) as (h' & Rn & Rl); try assumption;
    try (intros ->; first [apply Qn, in_elt|apply Pn, in_elt]); try congruence;
    rewrite ?No, ?Vo; try (intro X; first [apply Ia in X|apply Ib in X]; first [apply Qn, Sub; tauto|apply Pn, Sub; tauto|tauto]);
    try (intros x X; apply Lv, Sub; auto).
  exists h'. split.
  - unfold Replace. rewrite (bind_getc _ _ _ _ Eo0). cbv beta. destruct (dat co) eqn:D; try exact Rn.
    exfalso. rewrite (kind_some _ _ _ Eo), D in Ko. discriminate.
  - rewrite No, Vo in Rl. eapply (sd_relinked h d r cr); eassumption.
Qed.
Lemma SetDocumentElement_replaces h d r a o b :
  sound h -> attachable h d r -> kind h d = Some DocumentNode -> children h d (a ++ o :: b) ->
  (forall x, In x a -> kind h x <> Some ElementNode) -> kind h o = Some ElementNode ->
  exists h', SetDocumentElement d r h = (Ret tt, h') /\ substituted h d a o b r h'.
Proof.
  intros R A Kd Ch Na Ko. pose proof R as (F & G & FH).
  destruct (SetDocumentElement_relinks _ _ _ _ _ _ _ _ FH A Kd Ch Na Ko) as (h' & Rn & Rl). exists h'. split; [exact Rn|].
  pose proof A as (_ & NA & Hr & NAn).
  eapply relinked_substituted; try eassumption; try reflexivity.
  - exact (forest_consistent _ _ _ FH).
  - intros ->. apply NAn. constructor.
  - eapply kids_not_attr; eassumption.
Qed.

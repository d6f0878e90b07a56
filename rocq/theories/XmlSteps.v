(* The single callbacks of the tree builder. *)
From Coq Require Import FMapPositive Permutation.
From Verif Require Import Base Utf8 Utf8Proofs Escape Scan Parser Heap TreeBuilder TreeShape TreeOps Forest ForestOps ForestAdd
  ForestAttr History TreeCalls Xml Mirror XmlBuild.

Definition holder (d : data) : Prop := match d with DElem _ _ _ _ | DDoc _ _ _ _ _ => True | _ => False end.
(* p is an element or a document, and so is its parent if it has one *)
Definition standing (h : heap) (p : ptr) : Prop :=
  exists c, hget h p = Some c /\ holder (dat c) /\
    forall q, l_par (lk c) = Some q -> exists cq, hget h q = Some cq /\ holder (dat cq).

Record level (h : heap) (p : ptr) (ks : list ptr) : Prop := {
  lv_wf : wf h;
  lv_stand : standing h p;
  lv_ch : children h p ks;
  lv_self : ~ In p ks;
  lv_last : forall z, lasto ks = Some z -> kind h z <> Some DocumentNode }.

(* what building under p leaves alone *)
Record kept (h : heap) (p : ptr) (ks : list ptr) (h' : heap) : Prop := {
  k_nxt : (nxt h <= nxt h')%positive;
  k_same : forall x c, hget h x = Some c -> x <> p -> lasto ks <> Some x -> hget h' x = Some c;
  k_par : forall c, hget h p = Some c ->
    exists c', hget h' p = Some c' /\ dat c' = dat c /\ l_par (lk c') = l_par (lk c) /\ l_next (lk c') = l_next (lk c);
  k_last : forall z c, lasto ks = Some z -> z <> p -> hget h z = Some c ->
    exists c', hget h' z = Some c' /\ dat c' = dat c /\ l_par (lk c') = l_par (lk c) /\ l_first (lk c') = l_first (lk c) /\ owner c' = owner c }.

Lemma lasto_some_in ks z : lasto ks = Some z -> In z ks.
Proof.
  destruct (snoc_cases ks) as [->|(l & y & ->)]; [discriminate|]. rewrite lasto_snoc. intros E. injection E as ->. apply in_elt.
Qed.
Lemma optr_dec (a b : option ptr) : {a = b} + {a <> b}.
Proof. repeat decide equality. Qed.

Lemma standing_not_attr h p : standing h p -> ~ in_attr h p.
Proof.
  intros (c & E & D & P) (c' & E' & H). rewrite E in E'. injection E' as <-. destruct H as [H|(q & d & H1 & H2 & H3)].
  - destruct (dat c); cbn in *; try contradiction; discriminate.
  - destruct (P q H1) as (cq & Eq & Hq). rewrite H2 in Eq. injection Eq as <-.
    destruct (dat d); cbn in *; try contradiction; discriminate.
Qed.
Lemma standing_live h p : standing h p -> live h p.
Proof. intros (c & E & _). exists c. exact E. Qed.
Lemma holder_kids d : holder d -> no_kids_data d = false.
Proof. destruct d; cbn; tauto. Qed.

Lemma kept_dat h p ks h' x c : kept h p ks h' -> hget h x = Some c ->
  exists c', hget h' x = Some c' /\ dat c' = dat c /\ l_par (lk c') = l_par (lk c).
Proof.
  intros K E. destruct (Pos.eqb x p) eqn:X.
  - apply Pos.eqb_eq in X. subst x. destruct (k_par _ _ _ _ K c E) as (c' & H1 & H2 & H3 & _). eauto.
  - apply Pos.eqb_neq in X. destruct (optr_dec (lasto ks) (Some x)) as [L|L].
    + destruct (k_last _ _ _ _ K x c L X E) as (c' & H1 & H2 & H3 & _). eauto.
    + exists c. rewrite (k_same _ _ _ _ K x c E X L). auto.
Qed.
Lemma standing_by h h' q : standing h q ->
  (forall x c, hget h x = Some c -> exists c', hget h' x = Some c' /\ dat c' = dat c /\ l_par (lk c') = l_par (lk c)) ->
  standing h' q.
Proof.
  intros (c & E & D & P) F. destruct (F q c E) as (c' & E' & D' & P'). exists c'. split; [exact E'|]. split; [rewrite D'; exact D|].
  intros r R. rewrite P' in R. destruct (P r R) as (cr & Er & Dr). destruct (F r cr Er) as (cr' & Er' & Dr' & _).
  exists cr'. split; [exact Er'|]. rewrite Dr'. exact Dr.
Qed.
Lemma kept_refl h p ks : kept h p ks h.
Proof. constructor; intros; eauto 8. lia. Qed.

(* composing: first under p from ks to ks', then again under p *)
Lemma kept_trans h p ks h1 ks' h2 : kept h p ks h1 -> kept h1 p ks' h2 ->
  ~ In p ks -> (forall z, In z ks -> lasto ks' = Some z -> lasto ks = Some z) ->
  (forall x c, hget h x = Some c -> In x ks' -> In x ks) -> kept h p ks h2.
Proof.
  intros K1 K2 Np Hl Hin. constructor.
  - pose proof (k_nxt _ _ _ _ K1). pose proof (k_nxt _ _ _ _ K2). lia.
  - intros x c E Hp Hx. apply (k_same _ _ _ _ K2); [apply (k_same _ _ _ _ K1); assumption|assumption|].
    intros Z. apply Hx, Hl; [|exact Z]. eapply Hin; [exact E|]. apply lasto_some_in, Z.
  - intros c E. destruct (k_par _ _ _ _ K1 c E) as (c1 & E1 & D1 & P1 & N1).
    destruct (k_par _ _ _ _ K2 c1 E1) as (c2 & E2 & D2 & P2 & N2). exists c2.
    refine (conj E2 (conj _ (conj _ _))); congruence.
  - intros z c L Hp E. destruct (k_last _ _ _ _ K1 z c L Hp E) as (c1 & E1 & D1 & P1 & F1 & O1).
    destruct (optr_dec (lasto ks') (Some z)) as [L'|L'].
    + destruct (k_last _ _ _ _ K2 z c1 L' Hp E1) as (c2 & E2 & D2 & P2 & F2 & O2). exists c2.
      refine (conj E2 (conj _ (conj _ (conj _ _)))); congruence.
    + exists c1. rewrite (k_same _ _ _ _ K2 z c1 E1 Hp L'). auto.
Qed.

(* an open level under building elsewhere *)
Lemma level_kept h p ks e h' : level h p ks -> kept h e [] h' -> wf h' -> p <> e -> level h' p ks.
Proof.
  intros [W S C N L] K W' Ne.
  assert (Fr : forall x c, hget h x = Some c -> exists c', hget h' x = Some c' /\ dat c' = dat c /\
                 l_par (lk c') = l_par (lk c) /\ l_next (lk c') = l_next (lk c)).
  { intros x c E. destruct (Pos.eqb x e) eqn:X.
    - apply Pos.eqb_eq in X. subst x. exact (k_par _ _ _ _ K c E).
    - apply Pos.eqb_neq in X. exists c. rewrite (k_same _ _ _ _ K x c E X) by discriminate. auto. }
  constructor; [exact W'| | |exact N|].
  - eapply standing_by; [exact S|]. intros x c E. eapply kept_dat; eassumption.
  - pose proof C as (c & E & P & _). pose proof (k_same _ _ _ _ K p c E Ne ltac:(discriminate)) as E'.
    eapply children_by_path; [apply wf_consistent, W'|exact E'| |].
    + destruct S as (c0 & E0 & D & _). rewrite E in E0. injection E0 as <-. destruct (dat c); try contradiction; reflexivity.
    + eapply path_same; [exact P|]. intros x cx Hx Ex. destruct (Fr x cx Ex) as (c' & H1 & _ & _ & H4). eauto.
  - intros z Z. specialize (L z Z). unfold kind, data_of in *. pose proof C as (c & E & P & _).
    assert (X : exists cz, hget h z = Some cz).
    { apply lasto_some_in in Z. apply (children_in _ _ _ _ C) in Z. unfold parent_of in Z. destruct (hget h z); [eauto|discriminate]. }
    destruct X as (cz & Ez). destruct (Fr z cz Ez) as (c' & Ec & Dc & _). rewrite Ec. rewrite Ez in L. cbn in *. congruence.
Qed.

(* old cells untouched *)
Definition extends (h h' : heap) : Prop := (nxt h <= nxt h')%positive /\ forall x c, hget h x = Some c -> hget h' x = Some c.
Lemma extends_kept h h' p ks : extends h h' -> kept h p ks h'.
Proof.
  intros [N F]. constructor; [exact N|intros; apply F; assumption| |].
  - intros c E. exists c. rewrite (F _ _ E). auto.
  - intros z c _ _ E. exists c. rewrite (F _ _ E). auto.
Qed.
Lemma extends_trans h h1 h2 : extends h h1 -> extends h1 h2 -> extends h h2.
Proof. intros [N1 F1] [N2 F2]. split; [lia|auto]. Qed.
Lemma level_extends h p ks h' : level h p ks -> extends h h' -> wf h' -> level h' p ks.
Proof.
  intros [W S C N L] [_ F] W'. pose proof C as (c & E & P & _).
  constructor; [exact W'| | |exact N|].
  - eapply standing_by; [exact S|]. intros x cx Ex. exists cx. rewrite (F _ _ Ex). auto.
  - eapply children_by_path; [apply wf_consistent, W'|exact (F _ _ E)| |].
    + destruct S as (c0 & E0 & D & _). rewrite E in E0. injection E0 as <-. destruct (dat c); try contradiction; reflexivity.
    + eapply path_same; [exact P|]. intros x cx Hx Ex. exists cx. rewrite (F _ _ Ex). auto.
  - intros z Z. specialize (L z Z). unfold kind, data_of in *.
    assert (X : exists cz, hget h z = Some cz).
    { apply lasto_some_in in Z. apply (children_in _ _ _ _ C) in Z. unfold parent_of in Z. destruct (hget h z); [eauto|discriminate]. }
    destruct X as (cz & Ez). rewrite (F _ _ Ez). rewrite Ez in L. exact L.
Qed.

(* ---- attaching a fresh node ---- *)
Definition childless (h : heap) (q : ptr) : Prop := forall x c, hget h x = Some c -> l_par (lk c) <> Some q.

Lemma childless_ancestor h q p : childless h q -> ancestor h q p -> p = q.
Proof.
  intros C A. induction A as [|p c r E P A IH]; [reflexivity|]. subst r. exfalso. exact (C p c E P).
Qed.

Lemma grow h p ks q cq : level h p ks -> hget h q = Some cq -> lk cq = nolinks -> is_attr (dat cq) = false ->
  typeOf (dat cq) <> DocumentNode -> childless h q -> p <> q ->
  (forall z, lasto ks = Some z -> ~ (kind h z = Some TextNode /\ typeOf (dat cq) = TextNode)) ->
  exists h', AddChild p q h = (Ret tt, h') /\ nxt h' = nxt h /\ level h' p (ks ++ [q]) /\
    (forall x, x <> p -> x <> q -> lasto ks <> Some x -> hget h' x = hget h x) /\
    (forall x c, hget h x = Some c -> x <> q -> exists c', hget h' x = Some c' /\ dat c' = dat c /\ l_par (lk c') = l_par (lk c) /\
        (x = p -> l_next (lk c') = l_next (lk c)) /\ (x <> p -> l_first (lk c') = l_first (lk c)) /\ owner c' = owner c) /\
    (exists c', hget h' q = Some c' /\ dat c' = dat cq /\ l_par (lk c') = Some p /\ l_first (lk c') = None /\ l_next (lk c') = None).
Proof.
  intros LV Eq Lq Aq Tq Cl Hpq Tx. pose proof LV as [W S C N L]. destruct W as (F & G & FH).
  assert (LooseQ : loose h q).
  { exists cq. rewrite Lq. refine (conj Eq (conj Aq _)). repeat split. }
  assert (At : attachable h p q).
  { refine (conj (standing_live _ _ S) (conj (standing_not_attr _ _ S) (conj LooseQ _))).
    intro A. apply Hpq. exact (childless_ancestor _ _ _ Cl A). }
  destruct (AddChild_forest _ _ _ _ _ FH At) as (r & h' & R & Ef & F' & FH').
  pose proof S as (cp & Ep & Dp & Pp). pose proof (holder_kids _ Dp) as Nk.
  pose proof (children_last _ _ _ _ C Ep) as Ell.
  assert (X : r = Ret tt /\ grown h p q h').
  { destruct Ef as [c1 c2 s t h' E1 E2 D1 D2 Rd|c1 c2 s t h' E1 E2 D1 D2 Rd|c1 c2 e E1 E2 Nk1 T1
                   |c1 c2 cl l s t h' E1 Nk1 Ll El E2 Dl D2 Rd|c1 cl l e E1 Nk1 Ll El Tl|c1 c2 h' E1 E2 Nk1 T1 Gr];
      rewrite Ep in E1; injection E1 as <-.
    - rewrite D1 in Nk. discriminate.
    - rewrite D1 in Nk. discriminate.
    - congruence.
    - exfalso. rewrite Ell in Ll. apply (Tx l Ll). rewrite (kind_some _ _ _ El), Dl. rewrite Eq in E2. injection E2 as <-. rewrite D2. auto.
    - exfalso. rewrite Ell in Ll. apply (L l Ll). rewrite (kind_some _ _ _ El). congruence.
    - auto. }
  destruct X as [-> Gr]. exists h'. split; [exact R|].
  assert (W' : wf h') by (exists F', G; exact FH').
  pose proof (kids_not_attr _ _ _ _ _ FH C (standing_not_attr _ _ S)) as KA.
  pose proof (grown_children h h' p q ks (wf_consistent _ W') C LooseQ Hpq (standing_not_attr _ _ S) KA Gr) as (Ch' & _).
  assert (Nx : nxt h' = nxt h).
  { destruct Gr as (cy & _ & B). destruct (l_last (lk cy)); exact (proj1 B). }
  assert (Lz : forall z, lasto ks = Some z -> z <> p /\ z <> q).
  { intros z Z. apply lasto_some_in in Z. split; [intros ->; contradiction|intros ->].
    apply (children_in _ _ _ _ C) in Z. unfold parent_of in Z. rewrite Eq, Lq in Z. discriminate. }
  destruct Gr as (cy & Ey & B). rewrite Ep in Ey. injection Ey as <-. rewrite Ell in B.
  assert (Same : forall x, x <> p -> x <> q -> lasto ks <> Some x -> hget h' x = hget h x).
  { intros x X1 X2 X3. destruct (lasto ks) as [z|]; destruct B as [_ B]; rewrite B; peq; try congruence.
    cbn [optr_eqb]. peq; congruence. }
  assert (Some1 : forall x c, hget h x = Some c -> x <> q -> exists c', hget h' x = Some c' /\ dat c' = dat c /\ l_par (lk c') = l_par (lk c) /\
        (x = p -> l_next (lk c') = l_next (lk c)) /\ (x <> p -> l_first (lk c') = l_first (lk c)) /\ owner c' = owner c).
  { intros x c E X2. destruct (lasto ks) as [z|] eqn:Z; destruct B as [_ B]; rewrite B.
    - destruct (Pos.eqb x q) eqn:Q1; [apply Pos.eqb_eq in Q1; contradiction|].
      destruct (Pos.eqb x z) eqn:Q2.
      + apply Pos.eqb_eq in Q2. subst x. rewrite E. cbn. eexists. split; [reflexivity|]. cbn. repeat split; auto.
        intros X. exfalso. exact (proj1 (Lz z eq_refl) X).
      + cbn [optr_eqb]. destruct (Pos.eqb x p) eqn:Q3; rewrite E; cbn; eexists; (split; [reflexivity|]); cbn; repeat split; auto.
    - destruct (Pos.eqb x q) eqn:Q1; [apply Pos.eqb_eq in Q1; contradiction|].
      destruct (Pos.eqb x p) eqn:Q3; [apply Pos.eqb_eq in Q3; subst x|]; rewrite E; cbn; eexists; (split; [reflexivity|]); cbn;
        repeat split; auto.
      intro X. congruence. }
  assert (New : exists c', hget h' q = Some c' /\ dat c' = dat cq /\ l_par (lk c') = Some p /\ l_first (lk c') = None /\ l_next (lk c') = None).
  { destruct (lasto ks) as [z|]; destruct B as [_ B]; rewrite B, Pos.eqb_refl, Eq; cbn; eexists; (split; [reflexivity|]); cbn;
      rewrite Lq; cbn; auto. }
  refine (conj Nx (conj _ (conj Same (conj Some1 New)))).
  constructor; [exact W'| |exact Ch'| |].
  - exists (match hget h' p with Some c => c | None => cp end).
    destruct (Some1 p cp Ep Hpq) as (cp' & Ep' & Dp' & Pp' & _). rewrite Ep'. split; [reflexivity|]. split; [rewrite Dp'; exact Dp|].
    intros r0 R0. rewrite Pp' in R0. destruct (Pp r0 R0) as (cr & Er & Dr).
    assert (r0 <> q).
    { intros ->. exact (Cl p cp Ep R0). }
    destruct (Some1 r0 cr Er H) as (cr' & Er' & Dr' & _). exists cr'. split; [exact Er'|]. rewrite Dr'. exact Dr.
  - intro X. apply in_app_or in X as [X|[X|[]]]; [contradiction|congruence].
  - intros z. rewrite lasto_snoc. intros Z. injection Z as <-. destruct New as (c' & E' & D' & _).
    rewrite (kind_some _ _ _ E'), D'. congruence.
Qed.

Lemma childless_of h q c : wf h -> hget h q = Some c -> is_attr (dat c) = false -> l_first (lk c) = None -> childless h q.
Proof.
  intros W E A F x cx Ex P.
  assert (C : children h q []).
  { eapply children_by_path; [apply wf_consistent, W|exact E|exact A|]. rewrite F. constructor. }
  exact (children_parent _ _ _ _ _ C Ex P).
Qed.
Lemma new_node h o d : wf h -> fresh_data d ->
  let h1 := with_new h {| lk := nolinks; owner := o; dat := d |} in
  wf h1 /\ extends h h1 /\ nxt h1 = Pos.succ (nxt h) /\ hget h1 (nxt h) = Some {| lk := nolinks; owner := o; dat := d |}.
Proof.
  intros W D h1. pose proof (wf_ok _ W) as Hk. destruct W as (F & G & FH). refine (conj _ (conj _ (conj eq_refl _))).
  - eexists _, _. exact (forest_new _ _ _ o d FH D).
  - split; [cbn; lia|]. intros x c E. unfold h1. rewrite hget_new. destruct (Pos.eqb_spec x (nxt h)) as [->|]; [|exact E].
    rewrite (hok_free _ Hk) in E. discriminate.
  - unfold h1. rewrite hget_new, Pos.eqb_refl. reflexivity.
Qed.
Lemma level_fresh h p ks : level h p ks -> p <> nxt h.
Proof.
  intros [W (c & E & _) _ _ _] ->. rewrite (hok_free _ (wf_ok _ W)) in E. discriminate.
Qed.

(* what grow says about the cells, as kept *)
Lemma grow_kept h0 h p ks q h' : extends h0 h -> nxt h' = nxt h -> ~ In p ks -> hget h0 q = None ->
  (forall x, x <> p -> x <> q -> lasto ks <> Some x -> hget h' x = hget h x) ->
  (forall x c, hget h x = Some c -> x <> q -> exists c', hget h' x = Some c' /\ dat c' = dat c /\ l_par (lk c') = l_par (lk c) /\
        (x = p -> l_next (lk c') = l_next (lk c)) /\ (x <> p -> l_first (lk c') = l_first (lk c)) /\ owner c' = owner c) ->
  kept h0 p ks h'.
Proof.
  intros [N F] Nx Np Hq Same Cells. constructor.
  - lia.
  - intros x c E X1 X2. rewrite Same; [apply F, E|exact X1|intros ->; congruence|exact X2].
  - intros c E. destruct (Cells p c (F _ _ E)) as (c' & H1 & H2 & H3 & H4 & _); [intros ->; congruence|].
    exists c'. auto.
  - intros z c Z Zp E. destruct (Cells z c (F _ _ E)) as (c' & H1 & H2 & H3 & _ & H5 & H6); [intros ->; congruence|].
    exists c'. auto 8.
Qed.

(* a leaf *)
Definition leaf_of (d : data) : option xnode :=
  match d with
  | DText s => Some (XText s)
  | DComment s => Some (XComment s)
  | DPI t x => Some (XPI t x)
  | _ => None
  end.
Lemma add_leaf h p ks o d x : level h p ks -> leaf_of d = Some x ->
  (forall z, lasto ks = Some z -> ~ (kind h z = Some TextNode /\ typeOf d = TextNode)) ->
  exists h', AddChild p (nxt h) (with_new h {| lk := nolinks; owner := o; dat := d |}) = (Ret tt, h') /\
    level h' p (ks ++ [nxt h]) /\ kept h p ks h' /\ laid h' (nxt h) [nxt h] [x] (nxt h') /\
    data_of h' (nxt h) = Some d.
Proof.
  intros LV Ld Tx. pose proof (lv_wf _ _ _ LV) as W. pose proof (level_fresh _ _ _ LV) as Hp.
  assert (Fd : fresh_data d) by (destruct d; try discriminate; exact I).
  destruct (new_node h o d W Fd) as (W1 & X1 & N1 & E1). set (h1 := with_new h _) in *.
  pose proof (level_extends _ _ _ _ LV X1 W1) as LV1.
  destruct (grow h1 p ks (nxt h) _ LV1 E1) as (h' & R & N' & LV' & Same & Cells & (c' & E' & D' & P' & F' & Nx')); cbn [lk dat].
  - reflexivity.
  - destruct d; try discriminate; reflexivity.
  - destruct d; try discriminate; discriminate.
  - eapply childless_of; [exact W1|exact E1| |reflexivity]. destruct d; try discriminate; reflexivity.
  - exact Hp.
  - intros z Z [T1 T2]. apply (Tx z Z). split; [|exact T2]. rewrite <- T1. unfold kind, data_of.
    assert (Y : exists cz, hget h z = Some cz).
    { apply lasto_some_in in Z. apply (children_in _ _ _ _ (lv_ch _ _ _ LV)) in Z. unfold parent_of in Z. destruct (hget h z); [eauto|discriminate]. }
    destruct Y as (cz & Ez). rewrite (proj2 X1 _ _ Ez), Ez. reflexivity.
  - exists h'. split; [exact R|]. split; [exact LV'|]. cbn [dat] in D'. split; [|split].
    + eapply grow_kept; [exact X1|exact N'|exact (lv_self _ _ _ LV)| |exact Same|exact Cells].
      apply hok_free, wf_ok, W.
    + rewrite N', N1. apply ld_cons with (m := Pos.succ (nxt h)); [lia|lia| |constructor; lia].
      destruct d; cbn [leaf_of] in Ld; try discriminate; injection Ld as <-;
        [eapply in_text|eapply in_comment|eapply in_pi]; eassumption.
    + unfold data_of. rewrite E'. cbn. congruence.
Qed.

(* more text *)
Lemma more_text h p ks q s b : level h p (ks ++ [q]) -> data_of h q = Some (DText s) -> kind h p = Some ElementNode ->
  exists h', AddContent p b h = (Ret tt, h') /\ level h' p (ks ++ [q]) /\ data_of h' q = Some (DText (s ++ b)) /\
    (nxt h <= nxt h')%positive /\ (forall x c, x <> q -> hget h x = Some c -> hget h' x = Some c) /\
    (forall c, hget h q = Some c -> hget h' q = Some (with_dat (DText (s ++ b)) c)).
Proof.
  intros LV Dq Kp. pose proof LV as [W S C N L]. destruct W as (F & G & FH).
  destruct (AddContent_forest _ _ _ _ b FH (standing_live _ _ S) (standing_not_attr _ _ S)) as (r & h' & R & Ef & F' & FH').
  pose proof (data_of_some _ _ _ Dq) as (cq & Eq & Dq'). pose proof S as (cp & Ep & Dp & Pp).
  pose proof (children_last _ _ _ _ C Ep) as Ell. rewrite lasto_snoc in Ell.
  rewrite (kind_some _ _ _ Ep) in Kp. injection Kp as Kp.
  assert (W' : wf h') by (exists F', G; exact FH').
  pose proof (f_ok _ _ _ FH) as Hk.
  set (h1 := with_new h {| lk := nolinks; owner := None; dat := DText b |}) in *.
  assert (X1 : extends h h1).
  { destruct (new_node h None (DText b) (ex_intro _ F (ex_intro _ G FH)) I) as (_ & X & _). exact X. }
  assert (Rd : r = Ret tt /\ redata h1 q (DText (s ++ b)) h').
  { destruct Ef as [c1 s1 h' E1 D1 Rd|c1 s1 h' E1 D1 Rd|c1 r h' E1 Nk Ce].
    - rewrite Ep in E1. injection E1 as <-. rewrite D1 in Kp. discriminate.
    - rewrite Ep in E1. injection E1 as <-. rewrite D1 in Kp. discriminate.
    - fold h1 in Ce. pose proof (proj2 X1 _ _ Ep) as Ep1. pose proof (proj2 X1 _ _ Eq) as Eq1.
      assert (Er : exists r0, r0 = r) by eauto. destruct Er as (r0 & Er).
      destruct Ce as [c2 c3 s1 t h' E2 E3 D1 D2 Rd|c2 c3 s1 t h' E2 E3 D1 D2 Rd|c2 c3 e E2 E3 Nk1 T1
                   |c2 c3 cl l s1 t h' E2 Nk1 Ll El E3 Dl D2 Rd|c2 cl l e E2 Nk1 Ll El Tl|c2 c3 h' E2 E3 Nk1 T1 Gr];
        rewrite Ep1 in E2; injection E2 as <-.
      + rewrite D1 in Kp. discriminate.
      + rewrite D1 in Kp. discriminate.
      + rewrite Ep in E1. injection E1 as <-. congruence.
      + split; [reflexivity|]. rewrite Ell in Ll. injection Ll as <-. rewrite Eq1 in El. injection El as <-.
        rewrite Dq' in Dl. injection Dl as <-.
        assert (t = b).
        { unfold h1 in E3. rewrite hget_new, Pos.eqb_refl in E3. injection E3 as <-. cbn in D2. congruence. }
        subst t. exact Rd.
      + exfalso. rewrite Ell in Ll. injection Ll as <-. rewrite Eq1 in El. injection El as <-. rewrite Dq' in Tl. discriminate.
      + exfalso. apply (T1 q cq Ell Eq1). rewrite Dq'. split; [reflexivity|].
        unfold h1 in E3. rewrite hget_new, Pos.eqb_refl in E3. injection E3 as <-. reflexivity. }
  destruct Rd as [-> [Rn Rd]]. exists h'. split; [exact R|].
  assert (Oth : forall x c, x <> q -> hget h x = Some c -> hget h' x = Some c).
  { intros x c Hx E. rewrite Rd. destruct (Pos.eqb_spec x q); [contradiction|]. apply X1, E. }
  assert (Qq : forall c, hget h q = Some c -> hget h' q = Some (with_dat (DText (s ++ b)) c)).
  { intros c E. rewrite Rd, Pos.eqb_refl, (proj2 X1 _ _ E). reflexivity. }
  assert (Hpq : p <> q) by (intros ->; apply N, in_elt).
  assert (Dat : forall x c, hget h x = Some c -> exists c', hget h' x = Some c' /\ lk c' = lk c /\ (x <> q -> dat c' = dat c)).
  { intros x c E. destruct (Pos.eqb x q) eqn:Q.
    - apply Pos.eqb_eq in Q. subst x. exists (with_dat (DText (s ++ b)) c). rewrite (Qq c E). repeat split. intro; contradiction.
    - apply Pos.eqb_neq in Q. exists c. rewrite (Oth x c Q E). auto. }
  refine (conj _ (conj _ (conj _ (conj Oth Qq)))).
  - constructor; [exact W'| | |exact N|].
    + exists cp. split; [exact (Oth p cp Hpq Ep)|]. split; [exact Dp|]. intros r R0. destruct (Pp r R0) as (cr & Er & Dr).
      assert (r <> q) by (intros ->; rewrite Eq in Er; injection Er as <-; rewrite Dq' in Dr; contradiction).
      exists cr. split; [exact (Oth r cr H Er)|exact Dr].
    + eapply children_by_path; [apply wf_consistent, W'|exact (Oth p cp Hpq Ep)| |].
      * destruct (dat cp); try contradiction; reflexivity.
      * pose proof C as (c0 & E0 & P0 & _). rewrite Ep in E0. injection E0 as <-.
        eapply path_same; [exact P0|]. intros x c _ E. destruct (Dat x c E) as (c' & E' & L' & _). exists c'. rewrite L'. auto.
    + intros z. rewrite lasto_snoc. intros Z. injection Z as <-. rewrite (kind_some _ _ _ (Qq cq Eq)). discriminate.
  - unfold data_of. rewrite (Qq cq Eq). reflexivity.
  - rewrite Rn. exact (proj1 X1).
Qed.

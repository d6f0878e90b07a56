(* All the trees of a heap together, and the histories of calls that build
   them.  /repo/node.go, text.go, comment.go, element.go. *)
From Coq Require Import FMapPositive Permutation.
From Verif Require Import Base Utf8 Escape Scan Heap TreeShape TreeOps.

(* A forest: groups of neighbours without a parent; and attributes that belong
   to no element (what a failed SetAttribute leaves behind). *)
Definition fptrs (F : list (list ltree)) : list ptr := flat_map (flat_map ptrs) F.
Definition fnodes (F : list (list ltree)) : list ptr := flat_map (flat_map nodes) F.
Record forest (h : heap) (F : list (list ltree)) (G : list (ptr * list ptr)) : Prop := {
  f_ok : hok h;
  f_lk : Forall (linkeds h None None None) F;
  f_ga : Forall (fun a => achain h None [a]) G;
  f_nd : NoDup (fptrs F ++ attptrs G);
  f_all : forall p, hget h p <> None -> In p (fptrs F ++ attptrs G) }.

Lemma fptrs_cons g F : fptrs (g :: F) = flat_map ptrs g ++ fptrs F.
Proof. reflexivity. Qed.
Lemma fptrs_perm F F' : Permutation F F' -> Permutation (fptrs F) (fptrs F').
Proof. intro P. apply Permutation_flat_map, P. Qed.
Lemma forest_perm h F F' G : Permutation F F' -> forest h F G -> forest h F' G.
Proof.
  intros P [A B Ga C D]. pose proof (Permutation_app_tail (attptrs G) (fptrs_perm _ _ P)) as Q.
  constructor; [exact A| |exact Ga|..].
  - eapply Permutation_Forall; eassumption.
  - eapply Permutation_NoDup; eassumption.
  - intros p Hp. eapply Permutation_in; [exact Q|auto].
Qed.
Lemma forest_empty : forest empty_heap [] [].
Proof.
  constructor; [apply hok_empty|constructor|constructor|constructor|]. intros p H. exfalso. apply H.
  unfold hget, empty_heap. cbn [cells]. apply PositiveMap.gempty.
Qed.
Lemma forest_nodup h F G : forest h F G -> NoDup (fptrs F).
Proof. intro FH. eapply nodup_app_l, (f_nd _ _ _ FH). Qed.

(* ---- members ---- *)
Lemma nodes_fptrs F p : In p (fnodes F) -> In p (fptrs F).
Proof.
  unfold fnodes, fptrs. rewrite !in_flat_map. intros (g & Hg & H). exists g. split; [exact Hg|].
  apply in_flat_map in H as (t & Ht & H). apply in_flat_map. exists t. split; [exact Ht|]. apply nodes_in_ptrs, H.
Qed.
Lemma fnodes_split F y : In y (fnodes F) ->
  exists a t b F', Permutation F ((a ++ t :: b) :: F') /\ In y (nodes t).
Proof.
  intro H. apply flat_map_in_split in H as (F1 & g & F2 & -> & H).
  apply flat_map_in_split in H as (a & t & b & -> & H). exists a, t, b, (F1 ++ F2). split; [|exact H].
  symmetry. apply Permutation_middle.
Qed.

Definition live (h : heap) (p : ptr) : Prop := exists c, hget h p = Some c.
(* p is an attribute, or part of the value of one *)
Definition in_attr (h : heap) (p : ptr) : Prop :=
  exists c, hget h p = Some c /\
    (is_attr (dat c) = true \/
     exists q d, l_par (lk c) = Some q /\ hget h q = Some d /\ is_attr (dat d) = true).

Lemma vchain_in h a ks : forall prev k, vchain h a prev ks -> In k ks ->
  exists c s, hget h k = Some c /\ l_par (lk c) = Some a /\ l_first (lk c) = None /\ l_last (lk c) = None /\ dat c = DText s.
Proof.
  induction ks as [|x r IH]; intros prev k V H; [destruct H|]. cbn [vchain] in V. destruct V as [(c & V1 & V2 & s & V3) V4].
  destruct H as [<-|H]; [|eauto]. exists c, s. rewrite V2. auto.
Qed.
Lemma achain_in h l : forall prev x, achain h prev l -> In x (attptrs l) ->
  exists c, hget h x = Some c /\
    ((is_attr (dat c) = true /\ l_par (lk c) = None) \/
     exists a ca s, l_par (lk c) = Some a /\ l_first (lk c) = None /\ l_last (lk c) = None /\ dat c = DText s /\
                    hget h a = Some ca /\ is_attr (dat ca) = true /\ l_par (lk ca) = None).
Proof.
  induction l as [|[a ks] r IH]; intros prev x V H; [destruct H|]. cbn [achain] in V.
  destruct V as [(c & V1 & V2 & nm & df & V3) [V4 V5]]. cbn [attptrs flat_map fst snd] in H.
  destruct H as [<-|H].
  - exists c. split; [exact V1|]. left. rewrite V3, V2. auto.
  - apply in_app_or in H as [H|H].
    + destruct (vchain_in _ _ _ _ _ V4 H) as (cx & s & X1 & X2 & X3 & X4 & X5). exists cx. split; [exact X1|]. right.
      exists a, c, s. rewrite V3, V2. auto 10.
    + eapply IH; [exact V5|]. exact H.
Qed.

(* a cell of a tree is a node of it, or belongs to an attribute *)
Lemma ptrs_cases h t : forall par prev next x, linked h par prev next t -> In x (ptrs t) ->
  In x (nodes t) \/ exists p props nm ns defs a cp, hget h p = Some cp /\ dat cp = DElem nm ns defs props /\
                       achain h None a /\ In x (attptrs a).
Proof.
  induction t as [p a k IH] using ltree_ind'. intros par prev next x L H.
  apply linked_eq in L as [(c & L1 & L2 & L3) L4]. cbn [ptrs nodes] in *. destruct H as [H|H]; [left; left; exact H|].
  apply in_app_or in H as [H|H].
  - right. destruct (dat c) as [ | nm ns defs props | | | | | | | | | ] eqn:Ed; cbn [props_ok] in L3; try (subst a; destruct H);
      try (destruct L3 as [-> _]; destruct H); try contradiction.
    destruct L3 as [_ L3]. exists p, props, nm, ns, defs, a, c. auto.
  - apply in_flat_map in H as (t & Ht & H). destruct (linkeds_in _ _ _ _ _ _ L4 Ht) as (pv & nx & Lt).
    rewrite Forall_forall in IH. destruct (IH t Ht _ _ _ _ Lt H) as [X|X]; [left|right; exact X].
    right. apply in_flat_map. exists t. auto.
Qed.
(* a node of a tree is its root or has its parent in the tree *)
Lemma node_cases h t : forall par prev next x, linked h par prev next t -> In x (nodes t) ->
  x = root t \/
  exists y a k pv nx par' c, linked h par' pv nx (N y a k) /\ incl (nodes (N y a k)) (nodes t) /\ In x (map root k) /\
                  hget h x = Some c /\ l_par (lk c) = Some y.
Proof.
  induction t as [p a k IH] using ltree_ind'. intros par prev next x L H. pose proof L as L0.
  apply linked_eq in L as [_ L4]. cbn [nodes root] in *. destruct H as [H|H]; [left; congruence|right].
  apply in_flat_map in H as (t & Ht & H). destruct (linkeds_in _ _ _ _ _ _ L4 Ht) as (pv & nx & Lt).
  rewrite Forall_forall in IH. destruct (IH t Ht _ _ _ _ Lt H) as [->|(y & a' & k' & pv' & nx' & par' & c & X1 & X2 & X3 & X4 & X5)].
  - destruct t as [pt at' kt]. apply linked_eq in Lt as [(c & M1 & M2 & _) _].
    exists p, a, k, prev, next, par, c. refine (conj L0 (conj (incl_refl _) (conj _ (conj M1 _)))).
    + apply in_map_iff. exists (N pt at' kt). auto.
    + rewrite M2. reflexivity.
  - exists y, a', k', pv', nx', par', c. refine (conj X1 (conj _ (conj X3 (conj X4 X5)))).
    intros z Hz. right. apply in_flat_map. exists t. auto.
Qed.
Lemma node_not_attr h t par prev next x c :
  linked h par prev next t -> In x (nodes t) -> hget h x = Some c -> is_attr (dat c) = false.
Proof.
  intros L H E. destruct (find_sub _ _ _ _ _ _ L H) as (a & k & par' & pv & nx & Ls & _).
  apply linked_eq in Ls as [(c' & M1 & _ & M3) _]. rewrite M1 in E. injection E as <-.
  destruct (dat c'); cbn in *; [reflexivity..|contradiction|reflexivity|reflexivity|reflexivity|reflexivity|reflexivity].
Qed.
Lemma nodes_ancestor h t : forall par prev next x, linked h par prev next t -> In x (nodes t) -> ancestor h (root t) x.
Proof.
  induction t as [p a k IH] using ltree_ind'. intros par prev next x L H.
  apply linked_eq in L as [_ L4]. cbn [nodes root] in *. destruct H as [<-|H]; [constructor|].
  apply in_flat_map in H as (t & Ht & H). destruct (linkeds_in _ _ _ _ _ _ L4 Ht) as (pv & nx & Lt).
  rewrite Forall_forall in IH. pose proof (IH t Ht _ _ _ _ Lt H) as A.
  (* from the root of t one more step up *)
  clear H. induction A as [|x c r B1 B2 B3 IHA].
  - destruct t as [pt at' kt]. apply linked_eq in Lt as [(c & M1 & M2 & _) _]. cbn [root].
    econstructor; [exact M1|rewrite M2; reflexivity|constructor].
  - econstructor; eassumption.
Qed.
Lemma grounded_up h p q : ancestor h q p -> grounded h q -> grounded h p.
Proof. induction 1; intro G; [exact G|]. eapply gr_up; eauto. Qed.

(* ---- paths ---- *)
Lemma linkeds_path h par l : forall prev, linkeds h par prev None l -> path h (hd_error (map root l)) (map root l).
Proof.
  induction l as [|t r IH]; intros prev L; [constructor|]. cbn [linkeds] in L. destruct L as [L1 L2].
  cbn [map hd_error]. destruct t as [p a k]. apply linked_eq in L1 as [(c & M1 & M2 & _) _]. cbn [root] in *.
  econstructor; [exact M1|]. rewrite M2. cbn [l_next]. rewrite hdo_none. eapply IH, L2.
Qed.
Lemma linkeds_rpath h par l : forall next, linkeds h par None next l -> rpath h (lasto (map root l)) (rev (map root l)).
Proof.
  induction l as [|t l IH] using rev_ind; intros next L; [constructor|]. apply linkeds_app in L as [L1 [L2 _]].
  rewrite map_app. cbn [map]. rewrite lasto_snoc, rev_app_distr. cbn [rev app].
  destruct t as [p a k]. apply linked_eq in L2 as [(c & M1 & M2 & _) _]. cbn [root] in *.
  econstructor; [exact M1|]. rewrite M2. cbn [l_prev]. rewrite lsto_none. eapply IH, L1.
Qed.
Lemma path_fun h o l : path h o l -> forall l', path h o l' -> l = l'.
Proof.
  induction 1 as [|p c l A B IH]; intros l' P; inversion P as [|p' c' l2 A' B' E1]; subst; [reflexivity|].
  f_equal. apply IH. rewrite A in A'. injection A' as <-. exact B'.
Qed.
Lemma children_fun h p l l' : children h p l -> children h p l' -> l = l'.
Proof.
  intros (c & A1 & A2 & _) (c' & B1 & B2 & _). rewrite A1 in B1. injection B1 as <-.
  exact (path_fun _ _ _ A2 _ B2).
Qed.
Lemma nodup_roots l : NoDup (flat_map ptrs l) -> NoDup (map root l).
Proof.
  induction l as [|t r IH]; intro H; [constructor|]. cbn [map flat_map] in *. constructor.
  - intro X. apply in_map_iff in X as (u & E & Hu). apply (nodup_app_disj _ _ (root t) H); [apply in_root_ptrs|].
    apply in_flat_map. exists u. split; [exact Hu|]. rewrite <- E. apply in_root_ptrs.
  - apply IH. eapply nodup_app_r; exact H.
Qed.

(* ---- the subtree at a tree node ---- *)
Lemma forest_sub h F G y : forest h F G -> In y (fnodes F) ->
  exists a k par pv nx, linked h par pv nx (N y a k) /\ NoDup (ptrs (N y a k)) /\
                        incl (nodes (N y a k)) (fnodes F) /\ incl (ptrs (N y a k)) (fptrs F).
Proof.
  intros FH H. apply flat_map_in_split in H as (F1 & g & F2 & -> & H).
  apply flat_map_in_split in H as (ga & t & gb & -> & H).
  pose proof (f_lk _ _ _ FH) as L. rewrite Forall_forall in L.
  specialize (L (ga ++ t :: gb) ltac:(apply in_or_app; right; left; reflexivity)).
  assert (Hn : NoDup (ptrs t)).
  { pose proof (forest_nodup _ _ _ FH) as N. unfold fptrs in N. rewrite flat_map_app in N. apply nodup_app_r in N.
    cbn [flat_map] in N. apply nodup_app_l in N. rewrite flat_map_app in N. apply nodup_app_r in N.
    cbn [flat_map] in N. apply nodup_app_l in N. exact N. }
  destruct (linkeds_in _ _ _ _ _ _ L (in_elt t ga gb)) as (pv & nx & Lt).
  assert (IG : incl (nodes t) (fnodes (F1 ++ (ga ++ t :: gb) :: F2)) /\ incl (ptrs t) (fptrs (F1 ++ (ga ++ t :: gb) :: F2))).
  { split; intros z Hz.
    - apply in_flat_map. exists (ga ++ t :: gb). split; [apply in_elt|]. apply in_flat_map. exists t. split; [apply in_elt|exact Hz].
    - apply in_flat_map. exists (ga ++ t :: gb). split; [apply in_elt|]. apply in_flat_map. exists t. split; [apply in_elt|exact Hz]. }
  destruct IG as [G1 G2].
  assert (Q : forall t par prev next, linked h par prev next t -> NoDup (ptrs t) -> In y (nodes t) ->
    exists a k par pv nx, linked h par pv nx (N y a k) /\ NoDup (ptrs (N y a k)) /\
                          incl (nodes (N y a k)) (nodes t) /\ incl (ptrs (N y a k)) (ptrs t)).
  { clear. intro t. induction t as [x a k IH] using ltree_ind'. intros par prev next L Hn Hy. cbn [nodes] in Hy.
    destruct Hy as [->|Hy]; [exists a, k, par, prev, next; auto using incl_refl|].
    apply flat_map_in_split in Hy as (k1 & t & k2 & -> & Hy). apply linked_eq in L as [_ L4].
    destruct (linkeds_in _ _ _ _ _ _ L4 (in_elt t k1 k2)) as (pv & nx & Lt). rewrite Forall_forall in IH.
    assert (Hn' : NoDup (ptrs t)).
    { cbn [ptrs] in Hn. apply NoDup_cons_iff in Hn as [_ Hn]. apply nodup_app_r in Hn. rewrite flat_map_app in Hn.
      apply nodup_app_r in Hn. cbn [flat_map] in Hn. apply nodup_app_l in Hn. exact Hn. }
    destruct (IH t (in_elt t k1 k2) _ _ _ Lt Hn' Hy) as (a' & k' & par' & pv' & nx' & A & B & C & D).
    exists a', k', par', pv', nx'. refine (conj A (conj B (conj _ _))); intros z Hz; cbn [nodes ptrs]; right.
    - apply in_flat_map. exists t. split; [apply in_elt|auto].
    - apply in_or_app. right. apply in_flat_map. exists t. split; [apply in_elt|auto]. }
  destruct (Q t None pv nx Lt Hn H) as (a & k & par' & pv' & nx' & A & B & C & D).
  exists a, k, par', pv', nx'. refine (conj A (conj B (conj _ _))); intros z Hz; auto.
Qed.

(* the live cells: tree nodes, attributes, parts of attributes *)
Lemma forest_live h F G x c : forest h F G -> hget h x = Some c ->
  In x (fnodes F) \/
  (is_attr (dat c) = true /\ l_par (lk c) = None) \/
  (exists a ca s, l_par (lk c) = Some a /\ l_first (lk c) = None /\ l_last (lk c) = None /\ dat c = DText s /\
                  hget h a = Some ca /\ is_attr (dat ca) = true /\ l_par (lk ca) = None).
Proof.
  intros FH E. assert (H : In x (fptrs F ++ attptrs G)) by (apply (f_all _ _ _ FH); congruence).
  apply in_app_or in H as [H|H].
  2:{ right. apply in_flat_map in H as ([a ks] & Ha & H). pose proof (f_ga _ _ _ FH) as Ga. rewrite Forall_forall in Ga.
      assert (H' : In x (attptrs [(a, ks)])) by (cbn [attptrs flat_map]; rewrite app_nil_r; exact H).
      destruct (achain_in _ _ _ _ (Ga _ Ha) H') as (c' & Y1 & Y2). rewrite E in Y1. injection Y1 as <-. exact Y2. }
  apply in_flat_map in H as (g & Hg & H). apply in_flat_map in H as (t & Ht & H).
  pose proof (f_lk _ _ _ FH) as L. rewrite Forall_forall in L.
  destruct (linkeds_in _ _ _ _ _ _ (L g Hg) Ht) as (pv & nx & Lt).
  destruct (ptrs_cases _ _ _ _ _ _ Lt H) as [X|(p & props & nm & ns & defs & a & cp & X1 & X2 & X3 & X4)].
  - left. apply in_flat_map. exists g. split; [exact Hg|]. apply in_flat_map. exists t. auto.
  - right. destruct (achain_in _ _ _ _ X3 X4) as (c' & Y1 & Y2). rewrite E in Y1. injection Y1 as <-. exact Y2.
Qed.
Lemma forest_node h F G x c : forest h F G -> hget h x = Some c -> ~ in_attr h x -> In x (fnodes F).
Proof.
  intros FH E NA. destruct (forest_live _ _ _ _ _ FH E) as [X|[[X _]|(a & ca & s & X1 & _ & _ & _ & X5 & X6 & _)]]; [exact X|..].
  - exfalso. apply NA. exists c. auto.
  - exfalso. apply NA. exists c. split; [exact E|]. right. exists a, ca. auto.
Qed.
Lemma forest_parent h F G x c y : forest h F G -> In x (fnodes F) -> hget h x = Some c -> l_par (lk c) = Some y ->
  exists a k par pv nx, linked h par pv nx (N y a k) /\ In x (map root k) /\ In y (fnodes F).
Proof.
  intros FH H E P. apply in_flat_map in H as (g & Hg & H). apply in_flat_map in H as (t & Ht & H).
  pose proof (f_lk _ _ _ FH) as L. rewrite Forall_forall in L.
  destruct (linkeds_in _ _ _ _ _ _ (L g Hg) Ht) as (pv & nx & Lt).
  destruct (node_cases _ _ _ _ _ _ Lt H) as [->|(z & a & k & pv' & nx' & par' & c' & X1 & X2 & X3 & X4 & X5)].
  - destruct t as [pt at' kt]. apply linked_eq in Lt as [(c' & M1 & M2 & _) _]. cbn [root] in E. rewrite E in M1.
    injection M1 as <-. rewrite M2 in P. discriminate.
  - rewrite E in X4. injection X4 as <-. rewrite P in X5. injection X5 as <-.
    exists a, k, par', pv', nx'. refine (conj X1 (conj X3 _)). apply in_flat_map. exists g. split; [exact Hg|].
    apply in_flat_map. exists t. split; [exact Ht|]. apply X2. left. reflexivity.
Qed.

Lemma forest_children h F G y a k par pv nx : forest h F G -> In y (fnodes F) ->
  linked h par pv nx (N y a k) -> children h y (map root k).
Proof.
  intros FH Hy L. destruct (forest_sub _ _ _ _ FH Hy) as (a2 & k2 & par2 & pv2 & nx2 & L2 & Hn & _).
  assert (Ek : map root k = map root k2).
  { apply linked_eq in L as [(c & M1 & M2 & _) K1], L2 as [(c2 & M3 & M4 & _) K2].
    rewrite M1 in M3. injection M3 as <-. rewrite M2 in M4. injection M4 as E1 _ _ _ _.
    apply linkeds_path in K1, K2. rewrite E1 in K1. exact (path_fun _ _ _ K1 _ K2). }
  rewrite Ek. clear L Ek a k par pv nx.
  pose proof L2 as L3. apply linked_eq in L3 as [(c & M1 & M2 & M3) K]. exists c. split; [exact M1|]. rewrite M2. cbn [l_first l_last].
  refine (conj (linkeds_path _ _ _ _ K) (conj (linkeds_rpath _ _ _ _ K) (conj _ _))).
  - apply nodup_roots. cbn [ptrs] in Hn. apply NoDup_cons_iff in Hn as [_ Hn]. eapply nodup_app_r; exact Hn.
  - intro x. split.
    + intro Hx. apply in_map_iff in Hx as (t & <- & Ht). destruct (linkeds_in _ _ _ _ _ _ K Ht) as (pv & nx & Lt).
      destruct t as [pt at' kt]. apply linked_eq in Lt as [(c' & N1 & N2 & _) _]. unfold parent_of. cbn [root]. rewrite N1, N2. reflexivity.
    + unfold parent_of. destruct (hget h x) as [cx|] eqn:Ex; [|discriminate]. intro P.
      destruct (forest_live _ _ _ _ _ FH Ex) as [X|[[_ X]|(a' & ca & s & X1 & _ & _ & _ & X5 & X6 & _)]].
      * destruct (forest_parent _ _ _ _ _ _ FH X Ex P) as (a' & k' & par' & pv' & nx' & Y1 & Y2 & _).
        apply linked_eq in Y1 as [(c' & N1 & N2 & _) K'].
        rewrite M1 in N1. injection N1 as <-. rewrite M2 in N2. injection N2 as E1 _ _ _ _.
        apply linkeds_path in K, K'. rewrite E1 in K. rewrite (path_fun _ _ _ K _ K'). exact Y2.
      * congruence.
      * exfalso. rewrite P in X1. injection X1 as <-. rewrite M1 in X5. injection X5 as <-.
        destruct (dat c); cbn in *; try discriminate; contradiction.
Qed.

Lemma forest_consistent h F G : forest h F G -> consistent h.
Proof.
  intros FH p c E. destruct (forest_live _ _ _ _ _ FH E) as [X|[[X1 X2]|(a & ca & s & X1 & X2 & X3 & X4 & X5 & X6 & X7)]].
  - split.
    + intros _. destruct (forest_sub _ _ _ _ FH X) as (a & k & par & pv & nx & L & _). exists (map root k).
      eapply forest_children; eassumption.
    + apply in_flat_map in X as (g & Hg & H). apply in_flat_map in H as (t & Ht & H).
      pose proof (f_lk _ _ _ FH) as L. rewrite Forall_forall in L.
      destruct (linkeds_in _ _ _ _ _ _ (L g Hg) Ht) as (pv & nx & Lt).
      eapply grounded_up; [eapply nodes_ancestor; eassumption|].
      destruct t as [pt at' kt]. apply linked_eq in Lt as [(c' & M1 & M2 & _) _]. eapply gr_top; [exact M1|].
      rewrite M2. reflexivity.
  - split; [congruence|]. eapply gr_top; eassumption.
  - split.
    + intros _. exists []. exists c. rewrite X2, X3. refine (conj E (conj (path_nil _) (conj (rpath_nil _) (conj (NoDup_nil _) _)))).
      intro x. split; [intros []|]. unfold parent_of. destruct (hget h x) as [cx|] eqn:Ex; [|discriminate]. intro P.
      destruct (forest_live _ _ _ _ _ FH Ex) as [Y|[[_ Y]|(a' & ca' & s' & Y1 & _ & _ & _ & Y5 & Y6 & _)]].
      * destruct (forest_parent _ _ _ _ _ _ FH Y Ex P) as (a' & k' & par' & pv' & nx' & Z1 & Z2 & Z3).
        pose proof Z1 as Z1'. apply linked_eq in Z1 as [(c' & N1 & N2 & _) _]. rewrite E in N1. injection N1 as <-.
        rewrite N2 in X2. cbn in X2. destruct k'; [destruct Z2|discriminate].
      * congruence.
      * rewrite P in Y1. injection Y1 as <-. rewrite E in Y5. injection Y5 as <-. rewrite X4 in Y6. discriminate.
    + eapply gr_up; [exact E|exact X1|]. eapply gr_top; eassumption.
Qed.

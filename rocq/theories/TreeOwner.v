(* SetTreeDoc. *)
From Coq Require Import FMapPositive Permutation.
From Verif Require Import Base Utf8 Utf8Proofs Escape Scan Heap TreeShape TreeOps Forest ForestOps ForestAdd ForestAttr History TreeCalls TreeRead TreeReplace TreeAttrs.

(* ---- the specification ---- *)
Definition owner_is (h : heap) (d : option ptr) (x : ptr) : Prop := exists c, hget h x = Some c /\ owner c = d.
(* a is one of the attributes of e *)
Definition has_attr (h : heap) (e a : ptr) : Prop :=
  exists c nm ns defs props l, hget h e = Some c /\ dat c = DElem nm ns defs props /\ path h props l /\ In a l.
(* x belongs to the subtree of p: a descendant, an attribute of one, or part of
   the value of such an attribute *)
Inductive within (h : heap) (p : ptr) : ptr -> Prop :=
| w_node x : ancestor h p x -> within h p x
| w_attr e a : ancestor h p e -> has_attr h e a -> within h p a
| w_value e a x : ancestor h p e -> has_attr h e a -> parent_of h x = Some a -> within h p x.
(* the cells of S get the owner d, and nothing else changes *)
Definition owned (h : heap) (d : option ptr) (S : ptr -> Prop) (h' : heap) : Prop :=
  (forall x, S x -> hget h' x = option_map (with_owner d) (hget h x)) /\
  (forall x, ~ S x -> hget h' x = hget h x).

(* ---- lists of cells ---- *)
Definition ownl (h : heap) (d : option ptr) (l : list ptr) (h' : heap) : Prop :=
  nxt h' = nxt h /\ owned h d (fun x => In x l) h'.

Lemma pos_in (x : ptr) l : In x l \/ ~ In x l.
Proof. destruct (in_dec Pos.eq_dec x l); tauto. Qed.
Lemma with_owner_id c d : owner c = d -> with_owner d c = c.
Proof. destruct c. cbn. intros <-. reflexivity. Qed.
Lemma ownl_nil h d : ownl h d [] h.
Proof. split; [reflexivity|]. split; [intros x []|reflexivity]. Qed.
Lemma ownl_app h d a b h1 h2 : ownl h d a h1 -> ownl h1 d b h2 -> ownl h d (a ++ b) h2.
Proof.
  intros [N1 [A1 B1]] [N2 [A2 B2]]. split; [congruence|]. split.
  - intros x Hx. destruct (pos_in x b) as [Hb|Hb].
    + rewrite A2 by exact Hb. destruct (pos_in x a) as [Ha|Ha].
      * rewrite A1 by exact Ha. destruct (hget h x); reflexivity.
      * rewrite B1 by exact Ha. reflexivity.
    + rewrite B2 by exact Hb. apply A1. apply in_app_or in Hx. tauto.
  - intros x Hx. rewrite B2, B1; [reflexivity|intro; apply Hx, in_or_app; tauto..].
Qed.
Lemma ownl_same h d a b h' : ownl h d a h' -> (forall x, In x a <-> In x b) -> ownl h d b h'.
Proof.
  intros [N1 [A B]] E. split; [exact N1|]. split; intros x Hx; [apply A, E, Hx|apply B; rewrite E; exact Hx].
Qed.
Lemma ownl_all h d a : (forall x, In x a -> owner_is h d x) -> ownl h d a h.
Proof.
  intro H. split; [reflexivity|]. split; [|reflexivity]. intros x Hx. destruct (H x Hx) as (c & E & O). rewrite E. cbn.
  rewrite with_owner_id by exact O. reflexivity.
Qed.
Lemma ownl_set h d p c : hget h p = Some c -> setOwner p d h = (Ret tt, hset h p (with_owner d c)) /\ ownl h d [p] (hset h p (with_owner d c)).
Proof.
  intro E. split; [apply upd_run, E|]. split; [reflexivity|]. split.
  - intros x [<-|[]]. rewrite hget_hset_same, E. reflexivity.
  - intros x Hx. apply hget_hset_other. intros ->. apply Hx. left. reflexivity.
Qed.
Lemma ownl_get h d l h' x c : ownl h d l h' -> hget h x = Some c ->
  exists c', hget h' x = Some c' /\ lk c' = lk c /\ dat c' = dat c.
Proof.
  intros [_ [A B]] E. destruct (pos_in x l) as [H|H]; [rewrite A, E by exact H; cbn; eauto|rewrite B, E by exact H; eauto].
Qed.
Lemma ownl_similar h d l h' : ownl h d l h' -> similar h h'.
Proof.
  intro O. pose proof O as [N [A B]]. split; [exact N|]. intro x. destruct (hget h x) as [c|] eqn:E.
  - destruct (ownl_get _ _ _ _ _ _ O E) as (c' & E' & L & D). rewrite E'. split; [exact L|]. rewrite D. apply same_kind_refl.
  - destruct (pos_in x l) as [H|H]; [rewrite A, E by exact H|rewrite B, E by exact H]; exact I.
Qed.
Lemma ownl_owner h d l h' x : ownl h d l h' -> ~ In x l -> owner_is h' d x <-> owner_is h d x.
Proof. intros [_ [_ B]] H. unfold owner_is. rewrite B by exact H. reflexivity. Qed.

(* ---- values and attributes ---- *)
Lemma values_owned d a : forall ks pv h n, vchain h a pv ks -> NoDup ks -> (2 * List.length ks <= n)%nat ->
  exists h', setListDoc n d (hd_error ks) h = (Ret tt, h') /\ ownl h d ks h'.
Proof.
  induction ks as [|x r IH]; intros pv h n V Nd B.
  - exists h. split; [destruct n; reflexivity|apply ownl_nil].
  - cbn [vchain] in V. destruct V as [(c & E & Lc & s & D) V]. apply NoDup_cons_iff in Nd as [Nx Nd].
    cbn [List.length] in B. destruct n as [|[|n]]; try lia. cbn [hd_error setListDoc].
    rewrite (bind_getc _ _ _ _ E). cbv beta.
    assert (St : exists h1, (if optr_eqb (owner c) d then hret tt else setTreeDoc (S n) d x) h = (Ret tt, h1) /\ ownl h d [x] h1).
    { destruct (optr_eqb (owner c) d) eqn:Eo.
      - apply optr_eqb_eq in Eo. exists h. split; [reflexivity|]. apply ownl_all. intros y [<-|[]]. exists c. auto.
      - cbn [setTreeDoc]. rewrite (bind_getc _ _ _ _ E). cbv beta. rewrite Eo, D.
        erewrite hbind_ret; [|reflexivity]. rewrite (bind_getc _ _ _ _ E). cbv beta. rewrite Lc. cbn [l_first].
        erewrite hbind_ret; [|destruct n; reflexivity]. destruct (ownl_set h d x c E) as [R O]. eauto. }
    destruct St as (h1 & R1 & O1). rewrite (hbind_ret _ _ _ _ _ R1).
    destruct (ownl_get _ _ _ _ _ _ O1 E) as (c1 & E1 & L1 & _). rewrite (bind_getc _ _ _ _ E1). cbv beta. rewrite L1, Lc. cbn [l_next].
    destruct (IH (Some x) h1 (S n)) as (h2 & R2 & O2); [eapply vchain_similar; [eapply ownl_similar, O1|exact V]|exact Nd|lia|].
    exists h2. split; [exact R2|]. exact (ownl_app h d [x] r h1 h2 O1 O2).
Qed.
Lemma attrs_owned d : forall A pv h n, achain h pv A -> NoDup (attptrs A) -> (2 * List.length (attptrs A) <= n)%nat ->
  exists h', setAttrsDoc n d (hd_error (map fst A)) h = (Ret tt, h') /\ ownl h d (attptrs A) h'.
Proof.
  induction A as [|[a ks] r IH]; intros pv h n V Nd B.
  - exists h. split; [destruct n; reflexivity|apply ownl_nil].
  - cbn [achain] in V. destruct V as [(c & E & Lc & nm & df & D) [Vk V]].
    change (attptrs ((a, ks) :: r)) with (a :: ks ++ attptrs r) in *. apply NoDup_cons_iff in Nd as [Na Nd].
    cbn [List.length] in B. rewrite app_length in B. destruct n as [|n]; [lia|]. cbn [map fst hd_error setAttrsDoc].
    rewrite (bind_getc _ _ _ _ E). cbv beta. rewrite D.
    destruct (ownl_set h d a c E) as [R1 O1]. rewrite (hbind_ret _ _ _ _ _ R1). set (h1 := hset h a _) in *.
    destruct (ownl_get _ _ _ _ _ _ O1 E) as (c1 & E1 & L1 & _). rewrite (bind_getc _ _ _ _ E1). cbv beta. rewrite L1, Lc. cbn [l_first].
    destruct (values_owned d a ks None h1 n) as (h2 & R2 & O2);
      [eapply vchain_similar; [eapply ownl_similar, O1|exact Vk]|eapply nodup_app_l, Nd|lia|].
    rewrite (hbind_ret _ _ _ _ _ R2).
    destruct (ownl_get _ _ _ _ _ _ O2 E1) as (c2 & E2 & L2 & _). rewrite (bind_getc _ _ _ _ E2). cbv beta. rewrite L2, L1, Lc. cbn [l_next].
    destruct (IH (Some a) h2 n) as (h3 & R3 & O3).
    + eapply achain_similar; [eapply ownl_similar, O2|]. eapply achain_similar; [eapply ownl_similar, O1|exact V].
    + eapply nodup_app_r, Nd.
    + lia.
    + exists h3. split; [exact R3|]. exact (ownl_app h d [a] _ h1 h3 O1 (ownl_app _ _ _ _ _ _ O2 O3)).
Qed.

(* ---- trees ---- *)

(* a node already owned by d has its whole subtree owned by d *)
Definition closed (h : heap) (d : option ptr) (t : ltree) : Prop :=
  forall s, sub t s -> owner_is h d (root s) -> forall x, In x (ptrs s) -> owner_is h d x.

Lemma closed_kid h d p a k t : closed h d (N p a k) -> In t k -> closed h d t.
Proof. intros C Ht s S. apply C. econstructor; eassumption. Qed.
Lemma closed_ownl h d l h' t : ownl h d l h' -> (forall x, In x (ptrs t) -> ~ In x l) -> closed h d t -> closed h' d t.
Proof.
  intros O Dj C s S Os x Hx. pose proof (sub_ptrs _ _ S) as Is.
  apply (ownl_owner _ _ _ _ _ O (Dj _ (Is _ Hx))). apply (C s S); [|exact Hx].
  apply (ownl_owner _ _ _ _ _ O); [|exact Os]. apply Dj, Is. destruct s. left. reflexivity.
Qed.

Lemma kids_owned d par : forall l,
  (forall t, In t l -> forall h pv nx n, linked h par pv nx t -> NoDup (ptrs t) -> closed h d t -> (2 * List.length (ptrs t) <= S n)%nat ->
     exists h', setTreeDoc n d (root t) h = (Ret tt, h') /\ ownl h d (ptrs t) h') ->
  forall h pv n, linkeds h par pv None l -> NoDup (flat_map ptrs l) -> (forall t, In t l -> closed h d t) ->
  (2 * List.length (flat_map ptrs l) <= n)%nat ->
  exists h', setListDoc n d (hd_error (map root l)) h = (Ret tt, h') /\ ownl h d (flat_map ptrs l) h'.
Proof.
  induction l as [|t r IHr]; intros IH h pv n L Nd C B.
  - exists h. split; [destruct n; reflexivity|apply ownl_nil].
  - cbn [linkeds] in L. destruct L as [L1 L2]. cbn [flat_map] in *. rewrite app_length in B.
    assert (1 <= List.length (ptrs t))%nat by (destruct t; cbn; lia).
    destruct n as [|n]; [lia|]. cbn [map hd_error setListDoc].
    assert (Ht : exists p a k, t = N p a k) by (destruct t; eauto). destruct Ht as (p & a & k & Et).
    pose proof L1 as L1'. rewrite Et in L1'. apply linked_eq in L1' as [(c & E & Lc & _) _].
    assert (Er : root t = p) by (rewrite Et; reflexivity). rewrite Er. rewrite (bind_getc _ _ _ _ E). cbv beta.
    assert (St : exists h1, (if optr_eqb (owner c) d then hret tt else setTreeDoc n d p) h = (Ret tt, h1) /\ ownl h d (ptrs t) h1).
    { destruct (optr_eqb (owner c) d) eqn:Eo.
      - apply optr_eqb_eq in Eo. exists h. split; [reflexivity|]. apply ownl_all. apply (C t (or_introl eq_refl) t (sub_here _)).
        rewrite Er. exists c. auto.
      - rewrite <- Er. eapply IH; [left; reflexivity|exact L1|eapply nodup_app_l, Nd|apply C; left; reflexivity|lia]. }
    destruct St as (h1 & R1 & O1). rewrite (hbind_ret _ _ _ _ _ R1).
    destruct (ownl_get _ _ _ _ _ _ O1 E) as (c1 & E1 & Lc1 & _). rewrite (bind_getc _ _ _ _ E1). cbv beta. rewrite Lc1, Lc. cbn [l_next].
    rewrite hdo_none.
    destruct (IHr (fun u Hu => IH u (or_intror Hu)) h1 (Some (root t)) n) as (h2 & R2 & O2).
    + eapply linkeds_similar; [eapply ownl_similar, O1|]. exact L2.
    + eapply nodup_app_r, Nd.
    + intros u Hu. eapply closed_ownl; [exact O1| |apply C; right; exact Hu]. intros x Hx X.
      apply (nodup_app_disj _ _ x Nd X). apply in_flat_map. exists u. auto.
    + lia.
    + exists h2. split; [exact R2|]. eapply ownl_app; eassumption.
Qed.
Lemma tree_owned d t : forall h par pv nx n, linked h par pv nx t -> NoDup (ptrs t) -> closed h d t ->
  (2 * List.length (ptrs t) <= S n)%nat ->
  exists h', setTreeDoc n d (root t) h = (Ret tt, h') /\ ownl h d (ptrs t) h'.
Proof.
  induction t as [p a k IH] using ltree_ind'. intros h par pv nx n L Nd C B.
  pose proof L as L'. apply linked_eq in L' as [(c & E & Lc & Pk) K]. cbn [root].
  cbn [ptrs List.length] in B. rewrite app_length in B. destruct n as [|n]; [lia|]. cbn [setTreeDoc].
  rewrite (bind_getc _ _ _ _ E). cbv beta. destruct (optr_eqb (owner c) d) eqn:Eo.
  - apply optr_eqb_eq in Eo. exists h. split; [reflexivity|]. apply ownl_all. apply (C _ (sub_here _)). exists c. auto.
  - cbn [ptrs] in Nd. apply NoDup_cons_iff in Nd as [Np Nd].
    assert (St : exists h1, (match dat c with DElem _ _ _ props => setAttrsDoc n d props | _ => hret tt end) h = (Ret tt, h1) /\ ownl h d (attptrs a) h1).
    { destruct (dat c) eqn:D; cbn [props_ok] in Pk;
        try (exists h; split; [reflexivity|]; first [rewrite Pk|rewrite (proj1 Pk)|contradiction]; apply ownl_nil).
      destruct Pk as [-> Ac]. eapply attrs_owned; [exact Ac|eapply nodup_app_l, Nd|lia]. }
    destruct St as (h1 & R1 & O1). rewrite (hbind_ret _ _ _ _ _ R1).
    destruct (ownl_get _ _ _ _ _ _ O1 E) as (c1 & E1 & L1 & _). rewrite (bind_getc _ _ _ _ E1). cbv beta. rewrite L1, Lc. cbn [l_first].
    rewrite Forall_forall in IH.
    destruct (kids_owned d (Some p) k) with (h := h1) (pv := @None ptr) (n := n) as (h2 & R2 & O2).
    + intros t Ht h0 pv0 nx0 n0 Lt. eapply IH; eassumption.
    + eapply linkeds_similar; [eapply ownl_similar, O1|exact K].
    + eapply nodup_app_r, Nd.
    + intros u Hu. eapply closed_ownl; [exact O1| |eapply closed_kid; eassumption]. intros x Hx X.
      apply (nodup_app_disj _ _ x Nd X). apply in_flat_map. exists u. auto.
    + lia.
    + rewrite (hbind_ret _ _ _ _ _ R2). destruct (ownl_get _ _ _ _ _ _ O2 E1) as (c2 & E2 & _).
      destruct (ownl_set h2 d p c2 E2) as [R3 O3]. eexists. split; [exact R3|].
      eapply ownl_same; [exact (ownl_app _ _ _ _ _ _ (ownl_app _ _ _ _ _ _ O1 O2) O3)|].
      intro x. cbn [ptrs In]. rewrite !in_app_iff. cbn [In]. tauto.
Qed.

(* ---- subtrees by links ---- *)
Lemma achain_value h A : forall pv a ks, achain h pv A -> In (a, ks) A ->
  exists c nm df, hget h a = Some c /\ dat c = DAttr nm df /\ l_first (lk c) = hd_error ks /\ vchain h a None ks.
Proof.
  induction A as [|[b kb] r IH]; intros pv a ks V H; [destruct H|]. cbn [achain] in V. destruct V as [(c & E & Lc & nm & df & D) [Vk V]].
  destruct H as [H|H]; [injection H as -> ->|eauto]. exists c, nm, df. rewrite Lc. auto.
Qed.
Lemma ptrs_in_sub t : forall x, In x (ptrs t) -> exists e A k, sub t (N e A k) /\ (x = e \/ In x (attptrs A)).
Proof.
  induction t as [p a k IH] using ltree_ind'. intros x H. cbn [ptrs] in H. destruct H as [<-|H].
  - exists p, a, k. split; [constructor|left; reflexivity].
  - apply in_app_or in H as [H|H]; [exists p, a, k; split; [constructor|right; exact H]|].
    apply in_flat_map in H as (t & Ht & H). rewrite Forall_forall in IH. destruct (IH t Ht x H) as (e & A & k' & S & X).
    exists e, A, k'. split; [econstructor; eassumption|exact X].
Qed.
Lemma vchain_path h a ks : forall pv, vchain h a pv ks -> path h (hd_error ks) ks.
Proof.
  induction ks as [|x r IH]; intros pv V; [constructor|]. cbn [vchain] in V. destruct V as [(c & E & Lc & _) V].
  cbn [hd_error]. econstructor; [exact E|]. rewrite Lc. cbn [l_next]. eapply IH, V.
Qed.
(* a part of an attribute is the attribute, or in the value its first child starts *)
Lemma achain_part h A : forall pv x, achain h pv A -> In x (attptrs A) ->
  exists a ks ca, hget h a = Some ca /\ l_par (lk ca) = None /\ l_first (lk ca) = hd_error ks /\ vchain h a None ks /\ (x = a \/ In x ks).
Proof.
  induction A as [|[a ks] r IH]; intros pv x V H; [destruct H|]. cbn [achain] in V. destruct V as [(c & E & Lc & _) [Vk V]].
  change (attptrs ((a, ks) :: r)) with ((a :: ks) ++ attptrs r) in H. apply in_app_or in H as [H|H]; [|eauto].
  exists a, ks, c. rewrite Lc. refine (conj E (conj eq_refl (conj eq_refl (conj Vk _)))). destruct H as [H|H]; [left; congruence|right; exact H].
Qed.
Lemma value_of h F G a ca nm df y cy ks : forest h F G -> hget h a = Some ca -> dat ca = DAttr nm df ->
  l_first (lk ca) = hd_error ks -> vchain h a None ks ->
  hget h y = Some cy -> l_par (lk cy) = Some a -> In y ks.
Proof.
  intros FH Ea Da Fa V Ey Py.
  assert (Done : forall A, achain h None A -> In y (attptrs A) -> In y ks).
  { intros A Ac H. destruct (achain_part _ _ _ _ Ac H) as (b & kb & cb & Eb & Pb & Fb & Vb & [->|Hy]).
    - rewrite Ey in Eb. injection Eb as <-. congruence.
    - destruct (vchain_in _ _ _ _ _ Vb Hy) as (c' & s & E' & P' & _). rewrite Ey in E'. injection E' as <-.
      rewrite Py in P'. injection P' as <-. rewrite Ea in Eb. injection Eb as <-.
      pose proof (vchain_path _ _ _ _ V) as P1. pose proof (vchain_path _ _ _ _ Vb) as P2. rewrite <- Fa, Fb in P1.
      rewrite (path_fun _ _ _ P1 _ P2). exact Hy. }
  assert (H : In y (fptrs F ++ attptrs G)) by (apply (f_all _ _ _ FH); congruence).
  apply in_app_or in H as [H|H].
  - apply in_flat_map in H as (g & Hg & H). apply in_flat_map in H as (t & Ht & H).
    pose proof (f_lk _ _ _ FH) as L. rewrite Forall_forall in L. destruct (linkeds_in _ _ _ _ _ _ (L g Hg) Ht) as (pv & nx & Lt).
    destruct (ptrs_cases _ _ _ _ _ _ Lt H) as [X|(p & props & nm' & ns & defs & A & cp & X1 & X2 & X3 & X4)]; [|eauto].
    assert (Hf : In y (fnodes F)) by (apply in_flat_map; exists g; split; [exact Hg|apply in_flat_map; exists t; auto]).
    destruct (forest_parent _ _ _ _ _ _ FH Hf Ey Py) as (A & k & par' & pv' & nx' & La & _).
    apply linked_eq in La as [(c' & E' & _ & Pk) _]. rewrite Ea in E'. injection E' as <-. rewrite Da in Pk. destruct Pk.
  - apply in_flat_map in H as ([b kb] & Hb & H). pose proof (f_ga _ _ _ FH) as Ga. rewrite Forall_forall in Ga.
    apply (Done [(b, kb)] (Ga _ Hb)). cbn [attptrs flat_map]. rewrite app_nil_r. exact H.
Qed.
Lemma tree_within h F G t par pv nx : forest h F G -> linked h par pv nx t -> incl (nodes t) (fnodes F) ->
  forall x, In x (ptrs t) <-> within h (root t) x.
Proof.
  intros FH L I x. split.
  - intro Hx. destruct (ptrs_in_sub _ _ Hx) as (e & A & k & S & Hx').
    assert (An : ancestor h (root t) e).
    { eapply nodes_ancestor; [exact L|]. apply (sub_nodes _ _ S). left. reflexivity. }
    destruct Hx' as [->|Hx']; [apply w_node, An|].
    destruct (linked_sub _ _ _ S _ _ _ L) as (par' & pv' & nx' & Ls). apply linked_eq in Ls as [(c & E & _ & Pk) _].
    destruct (dat c) eqn:D; cbn [props_ok] in Pk;
      try (first [rewrite Pk in Hx'|rewrite (proj1 Pk) in Hx'|contradiction]; destruct Hx').
    destruct Pk as [-> Ac]. apply in_flat_map in Hx' as ([a ks] & Ha & Hx'). cbn [fst snd] in Hx'.
    assert (Hh : has_attr h e a).
    { exists c. do 4 eexists. exists (map fst A). refine (conj E (conj D (conj (achain_path _ _ _ Ac) _))). apply in_map_iff. exists (a, ks). auto. }
    destruct Hx' as [<-|Hx']; [eapply w_attr; eassumption|]. destruct (achain_value _ _ _ _ _ Ac Ha) as (ca & nm & df & Ea & Da & Fa & V).
    destruct (vchain_in _ _ _ _ _ V Hx') as (cx & s & Ex & Px & _). eapply w_value; [exact An|exact Hh|]. unfold parent_of. rewrite Ex. exact Px.
  - assert (At : forall e a, ancestor h (root t) e -> has_attr h e a -> exists A k ks, sub t (N e A k) /\ In (a, ks) A).
    { intros e a An (c & nm & ns & defs & props & l & E & D & P & Ha).
      pose proof (descends _ _ _ _ _ _ _ _ FH L I An) as He. destruct (nodes_sub _ _ He) as (A & k & S).
      destruct (linked_sub _ _ _ S _ _ _ L) as (par' & pv' & nx' & Ls). apply linked_eq in Ls as [(c' & E' & _ & Pk) _].
      rewrite E in E'. injection E' as <-. rewrite D in Pk. destruct Pk as [-> Ac].
      rewrite (path_fun _ _ _ P _ (achain_path _ _ _ Ac)) in Ha. apply in_map_iff in Ha as ([a' ks] & Ea & Ha). cbn in Ea. subst a'.
      exists A, k, ks. auto. }
    intros [y An|e a An Ha|e a y An Ha Py].
    + apply nodes_in_ptrs. eapply descends; eassumption.
    + destruct (At _ _ An Ha) as (A & k & ks & S & Hin). apply (sub_ptrs _ _ S). cbn [ptrs]. right. apply in_or_app. left.
      apply in_flat_map. exists (a, ks). split; [exact Hin|left; reflexivity].
    + destruct (At _ _ An Ha) as (A & k & ks & S & Hin).
      unfold parent_of in Py. destruct (hget h y) as [cy|] eqn:Ey; [|discriminate].
      destruct (linked_sub _ _ _ S _ _ _ L) as (par' & pv' & nx' & Ls). apply linked_eq in Ls as [(c' & E' & _ & Pk) _].
      destruct (dat c') eqn:D; cbn [props_ok] in Pk; try (first [rewrite Pk in Hin|rewrite (proj1 Pk) in Hin|contradiction]; destruct Hin).
      destruct Pk as [_ Ac]. destruct (achain_value _ _ _ _ _ Ac Hin) as (ca & nm & df & Ea & Da & Fa & V).
      apply (sub_ptrs _ _ S). cbn [ptrs]. right. apply in_or_app. left. apply in_flat_map. exists (a, ks). split; [exact Hin|]. right. cbn [snd].
      eapply value_of; eassumption.
Qed.

Lemma ptrs_small h par pv nx t : hok h -> linked h par pv nx t -> NoDup (ptrs t) -> (List.length (ptrs t) < size h)%nat.
Proof.
  intros K L Nd. unfold size. apply Nat.lt_lt_succ_r, lt_bounded; [exact Nd|]. intros x Hx.
  assert (Hc : exists c, hget h x = Some c).
  { destruct (ptrs_cases _ _ _ _ _ _ L Hx) as [X|(q & props & nm & ns & defs & A & cp & _ & _ & X3 & X4)]; [eapply linked_live; eassumption|].
    destruct (achain_in _ _ _ _ X3 X4) as (c & E & _). eauto. }
  destruct Hc as (c & E). apply (K _ _ E).
Qed.

(* no node of the subtree is owned by d without its own subtree being so *)
Definition uniform (h : heap) (d : option ptr) (p : ptr) : Prop :=
  forall y x, ancestor h p y -> owner_is h d y -> within h y x -> owner_is h d x.

Lemma SetTreeDoc_owns h p d n : sound h -> live h p -> ~ in_attr h p -> uniform h d p -> (2 * size h <= n)%nat ->
  exists h', setTreeDoc n d p h = (Ret tt, h') /\ owned h d (within h p) h' /\ consistent h'.
Proof.
  intros R (c & E) NA U B. pose proof R as (F & G & FH).
  destruct (node_tree _ _ _ _ _ FH E NA) as (a & k & par & pv & nx & L & Nd & I).
  pose proof (tree_within _ _ _ _ _ _ _ FH L I) as W. pose proof (ptrs_small _ _ _ _ _ (f_ok _ _ _ FH) L Nd) as Sz.
  destruct (tree_owned d _ _ _ _ _ n L Nd) as (h' & Rn & O); [|lia|].
  - intros s S Os x Hx. destruct (linked_sub _ _ _ S _ _ _ L) as (par' & pv' & nx' & Ls).
    assert (Is : incl (nodes s) (fnodes F)) by (intros z Hz; apply I, (sub_nodes _ _ S), Hz).
    apply (U (root s)); [|exact Os|].
    + change p with (root (N p a k)). eapply nodes_ancestor; [exact L|]. apply (sub_nodes _ _ S). destruct s. left. reflexivity.
    + apply (tree_within _ _ _ _ _ _ _ FH Ls Is), Hx.
  - exists h'. refine (conj Rn (conj _ _)).
    + destruct O as [_ [A Bo]]. split; intros x Hx; [apply A, W, Hx|apply Bo; rewrite W; exact Hx].
    + eapply forest_consistent, forest_similar; [eapply ownl_similar, O|exact FH].
Qed.

(* Histories that also replace nodes.  A node that was replaced keeps its old
   links (C35), so it and what hangs below it are set aside: the links of all
   other nodes stay consistent. *)
From Coq Require Import FMapPositive Permutation.
From Verif Require Import Base Utf8 Utf8Proofs XmlSpec Escape Scan Heap TreeShape TreeOps Forest ForestOps ForestAdd ForestAttr History TreeCalls TreeRead TreeReplace TreeAttrs TreeOwner.

(* ---- the specification ---- *)

(* the heap without the nodes of X *)
Definition drop (X : list ptr) (h : heap) : heap :=
  {| cells := fold_right (fun x m => PositiveMap.remove x m) (cells h) X; nxt := nxt h |}.

(* The calls: those of History.v, and Replace, SetDocumentElement, SetTreeDoc
   (with enough fuel for any tree of the heap) and SetNamespace *)
Inductive tcall :=
| TOp (o : op)
| TReplace (o q : ptr)
| TRoot (d r : ptr)
| TOwner (d : option ptr) (p : ptr)
| TSpace (e : ptr) (prefix uri : str) (activate : bool).
Definition run (c : tcall) : HM unit :=
  match c with
  | TOp o => call o
  | TReplace o q => Replace o q
  | TRoot d r => SetDocumentElement d r
  | TOwner d p => fun h => setTreeDoc (2 * size h) d p h
  | TSpace e prefix uri a => SetNamespace e prefix uri a
  end.
(* When a call is allowed.  The node to be replaced has a parent, where the new
   one may be attached; a new root is an element and no document is a child of
   the document. *)
Definition fit (h : heap) (c : tcall) : Prop :=
  match c with
  | TOp o => allowed h o
  | TReplace o q => (exists p, parent_of h o = Some p /\ attachable h p q) /\ kind h o <> Some DocumentNode
  | TRoot d r => attachable h d r /\ kind h d = Some DocumentNode /\ kind h r = Some ElementNode /\
                 forall x, parent_of h x = Some d -> kind h x <> Some DocumentNode
  | TOwner _ p => live h p /\ ~ in_attr h p
  | TSpace e _ _ _ => kind h e = Some ElementNode
  end.
(* what a call takes out of use: the subtree of the replaced node *)
Definition gone (h : heap) (c : tcall) (x : ptr) : Prop :=
  match c with
  | TReplace o _ => within h o x
  | TRoot d _ => exists a o b, children h d (a ++ o :: b) /\ (forall y, In y a -> kind h y <> Some ElementNode) /\
                               kind h o = Some ElementNode /\ within h o x
  | _ => False
  end.
(* The heaps that allowed calls lead to from a heap of [start], with the nodes
   out of use.  Only nodes in use are arguments: drop X h knows no others. *)
Inductive since (start : heap -> Prop) : list ptr -> heap -> Prop :=
| since0 h : start h -> since start [] h
| sinceS X h c r h' X' : since start X h -> fit (drop X h) c -> run c h = (r, h') ->
    (forall x, In x X' <-> In x X \/ gone (drop X h) c x) -> since start X' h'.
(* beginning with nothing *)
Definition life : list ptr -> heap -> Prop := since (fun h => h = empty_heap).

(* ---- the rest of the heap does not matter ---- *)

(* h0 is h without the nodes of X *)
Definition less (X : list ptr) (h0 h : heap) : Prop :=
  nxt h = nxt h0 /\ hok h /\ (forall x, In x X -> (x < nxt h)%positive) /\
  (forall x, In x X -> hget h0 x = None) /\ (forall x, ~ In x X -> hget h0 x = hget h x).
(* m does on h what it does on h0, and leaves X alone *)
Definition fr {A} (m : HM A) : Prop := forall X h0 h, less X h0 h -> fst (m h0) <> Pan ->
  fst (m h) = fst (m h0) /\ less X (snd (m h0)) (snd (m h)) /\ forall x, In x X -> hget (snd (m h)) x = hget h x.

Lemma less_get X h0 h x c : less X h0 h -> hget h0 x = Some c -> hget h x = Some c /\ ~ In x X.
Proof.
  intros (_ & _ & _ & A & B) E. assert (N : ~ In x X) by (intro H; rewrite A in E by exact H; discriminate).
  rewrite <- B by exact N. auto.
Qed.
Lemma less_size X h0 h : less X h0 h -> size h = size h0.
Proof. intros (N & _). unfold size. rewrite N. reflexivity. Qed.

Lemma fr_stay {A} (o : outcome herr A) : fr (fun h => (o, h)).
Proof. intros X h0 h L _. auto. Qed.
Lemma fr_ret A (a : A) : fr (hret a). Proof. apply fr_stay. Qed.
Lemma fr_fail A e : fr (@hfail A e). Proof. apply fr_stay. Qed.
Lemma fr_pan A : fr (@hpan A). Proof. apply fr_stay. Qed.
Lemma fr_oof A : fr (@hoof A). Proof. apply fr_stay. Qed.
Lemma fr_bind A B (m : HM A) (f : A -> HM B) : fr m -> (forall a, fr (f a)) -> fr (hbind m f).
Proof.
  intros Hm Hf X h0 h L NP. unfold hbind in *. specialize (Hm X h0 h L). destruct (m h0) as [r0 h1], (m h) as [r h2].
  cbn [fst snd] in *.
  assert (N0 : r0 <> Pan) by (intros ->; apply NP; reflexivity).
  destruct (Hm N0) as (-> & L1 & K1). destruct r0 as [a|e| |]; cbn [fst snd]; auto.
  destruct (Hf a X h1 h2 L1 NP) as (E & L2 & K2). refine (conj E (conj L2 _)).
  intros x Hx. rewrite K2, K1 by exact Hx. reflexivity.
Qed.
Lemma fr_ignore m : fr m -> fr (hignore m).
Proof.
  intros Hm X h0 h L NP. unfold hignore in *. specialize (Hm X h0 h L). destruct (m h0) as [r0 h1], (m h) as [r h2].
  cbn [fst snd] in *.
  assert (N0 : r0 <> Pan) by (intros ->; apply NP; reflexivity).
  destruct (Hm N0) as (-> & L1 & K1). destruct r0; auto.
Qed.
Lemma fr_size A (f : nat -> HM A) : (forall n, fr (f n)) -> fr (fun h => f (size h) h).
Proof. intros Hf X h0 h L NP. rewrite (less_size _ _ _ L). apply Hf; assumption. Qed.
Lemma fr_getc p : fr (getc p).
Proof.
  intros X h0 h L NP. unfold getc in *. destruct (hget h0 p) as [c|] eqn:E; [|exfalso; apply NP; reflexivity].
  destruct (less_get _ _ _ _ _ L E) as [-> _]. auto.
Qed.
Lemma fr_deref o : fr (deref o).
Proof. destruct o; [apply fr_ret|apply fr_pan]. Qed.
Lemma fr_alloc o d : fr (alloc o d).
Proof.
  intros X h0 h L _. pose proof L as (N & K & B & A & E). unfold alloc. cbn [fst snd]. rewrite <- N. refine (conj eq_refl (conj _ _)).
  - unfold less. cbn [nxt]. refine (conj eq_refl (conj _ (conj _ (conj _ _)))).
    + exact (hok_new _ {| lk := nolinks; owner := o; dat := d |} K).
    + intros x Hx. specialize (B x Hx). lia.
    + intros x Hx. unfold hget. cbn [cells]. rewrite PositiveMapAdditionalFacts.gsspec.
      destruct (PositiveMap.E.eq_dec x (nxt h)) as [->|]; [specialize (B _ Hx); lia|]. apply A, Hx.
    + intros x Hx. unfold hget. cbn [cells]. rewrite !PositiveMapAdditionalFacts.gsspec.
      destruct (PositiveMap.E.eq_dec x (nxt h)); [reflexivity|]. apply E, Hx.
  - intros x Hx. unfold hget. cbn [cells]. rewrite PositiveMapAdditionalFacts.gsspec.
    destruct (PositiveMap.E.eq_dec x (nxt h)) as [->|]; [specialize (B _ Hx); lia|reflexivity].
Qed.
Lemma fr_upd f p : fr (upd f p).
Proof.
  intros X h0 h L NP. unfold upd, hbind, getc, setc in *. destruct (hget h0 p) as [c|] eqn:E; [|exfalso; apply NP; reflexivity].
  destruct (less_get _ _ _ _ _ L E) as [E' Np]. rewrite E'. cbn [fst snd]. pose proof L as (N & K & B & A & E2).
  refine (conj eq_refl (conj _ _)).
  - refine (conj N (conj _ (conj B (conj _ _)))).
    + apply hok_hset; [exact K|congruence].
    + intros x Hx. rewrite hget_hset_other; [apply A, Hx|]. intros ->. contradiction.
    + intros x Hx. rewrite !hget_hset. destruct (Pos.eqb x p); [reflexivity|]. apply E2, Hx.
  - intros x Hx. rewrite hget_hset_other; [reflexivity|]. intros ->. contradiction.
Qed.
Create HintDb fr.
Ltac frt := repeat match goal with
  | |- fr (hbind _ _) => apply fr_bind; [|intros]
  | |- fr (hret _) => apply fr_ret
  | |- fr (hfail _) => apply fr_fail
  | |- fr hpan => apply fr_pan
  | |- fr hoof => apply fr_oof
  | |- fr (hignore _) => apply fr_ignore
  | |- fr (getc _) => apply fr_getc
  | |- fr (deref _) => apply fr_deref
  | |- fr (alloc _ _) => apply fr_alloc
  | |- fr (setData _ _) => apply fr_upd
  | |- fr (setOwner _ _) => apply fr_upd
  | |- fr (setFirst _ _) => apply fr_upd
  | |- fr (setLast _ _) => apply fr_upd
  | |- fr (setPar _ _) => apply fr_upd
  | |- fr (setNext _ _) => apply fr_upd
  | |- fr (setPrev _ _) => apply fr_upd
  | |- fr (if ?b then _ else _) => destruct b
  | |- fr (match ?x with _ => _ end) => destruct x
  | |- fr (let '(_, _) := ?x in _) => destruct x
  | _ => solve [auto with fr]
  end.
Lemma fr_lastSibling n : forall p, fr (lastSibling n p).
Proof. induction n; intros p; cbn [lastSibling]; frt. Qed.
Lemma fr_addSibling p q : fr (addSibling p q).
Proof. unfold addSibling. apply fr_bind; [apply (fr_size _ (fun n => lastSibling n p)); intros; apply fr_lastSibling|]. intros. frt. Qed.
#[local] Hint Resolve fr_addSibling : fr.
Lemma fr_AddSibling p q : fr (AddSibling p q).
Proof. unfold AddSibling. frt. Qed.
#[local] Hint Resolve fr_AddSibling : fr.
Lemma fr_addChild p q : fr (addChild p q).
Proof. unfold addChild. frt. Qed.
#[local] Hint Resolve fr_addChild : fr.
Lemma fr_AddChild p q : fr (AddChild p q).
Proof. unfold AddChild. frt. Qed.
#[local] Hint Resolve fr_AddChild : fr.
Lemma fr_AddContent p b : fr (AddContent p b).
Proof. unfold AddContent. frt. Qed.
Lemma fr_replaceNode p q : fr (replaceNode p q).
Proof. unfold replaceNode. frt. Qed.
#[local] Hint Resolve fr_replaceNode fr_AddContent : fr.
Lemma fr_Replace p q : fr (Replace p q).
Proof. unfold Replace. frt. Qed.
#[local] Hint Resolve fr_Replace : fr.
Lemma fr_firstElement n : forall o, fr (firstElement n o).
Proof. induction n; intros o; destruct o; cbn [firstElement]; frt. Qed.
Lemma fr_firstElement_size o : fr (fun h => firstElement (size h) o h).
Proof. apply (fr_size _ (fun n => firstElement n o)). intros. apply fr_firstElement. Qed.
#[local] Hint Resolve fr_firstElement_size : fr.
Lemma fr_SetDocumentElement d r : fr (SetDocumentElement d r).
Proof. unfold SetDocumentElement. frt. Qed.
Lemma fr_SetNamespace e p u a : fr (SetNamespace e p u a).
Proof. unfold SetNamespace. frt. Qed.
Lemma fr_owners n : (forall d p, fr (setTreeDoc n d p)) /\ (forall d o, fr (setListDoc n d o)) /\ (forall d o, fr (setAttrsDoc n d o)).
Proof.
  induction n as [|n (I1 & I2 & I3)]; (split; [|split]); intros d o; cbn [setTreeDoc setListDoc setAttrsDoc]; frt.
Qed.
Lemma fr_SetTreeDoc d p : fr (fun h => setTreeDoc (2 * size h) d p h).
Proof. apply (fr_size _ (fun n => setTreeDoc (2 * n) d p)). intro n. apply fr_owners. Qed.
Lemma fr_getDoc p : fr (getDoc p). Proof. unfold getDoc. frt. Qed.
Lemma fr_getDtd p : fr (getDtd p). Proof. unfold getDtd. frt. Qed.
#[local] Hint Resolve fr_getDoc fr_getDtd : fr.
Lemma fr_GetEntity d n : fr (GetEntity d n).
Proof. unfold GetEntity, LookupEntity. frt. Qed.
#[local] Hint Resolve fr_GetEntity : fr.
Lemma fr_CreateReference d n : fr (CreateReference d n).
Proof. unfold CreateReference, CreateCharRef. frt. Qed.
#[local] Hint Resolve fr_CreateReference : fr.
Lemma fr_setParents n : forall p b o, fr (setParents n p b o).
Proof. induction n; intros p b o; destruct o; cbn [setParents]; frt. Qed.
Lemma fr_setParents_size p b o : fr (fun h => setParents (size h) p b o h).
Proof. apply (fr_size _ (fun n => setParents n p b o)). intros. apply fr_setParents. Qed.
#[local] Hint Resolve fr_setParents_size : fr.
Lemma fr_linkNode rl p : fr (linkNode rl p).
Proof. unfold linkNode. frt. Qed.
#[local] Hint Resolve fr_linkNode : fr.
Lemma fr_flushText d b rl : fr (flushText d b rl).
Proof. unfold flushText, CreateText. frt. Qed.
#[local] Hint Resolve fr_flushText : fr.
Lemma obind_pan {A B} (o : outcome herr A) (f : A -> outcome herr B) : obind o f <> Pan -> o <> Pan.
Proof. intros H ->. apply H. reflexivity. Qed.
Lemma content_less X h0 h : less X h0 h -> forall n,
  (forall p, content h0 n p <> Pan -> content h n p = content h0 n p) /\
  (forall o, contents h0 n o <> Pan -> contents h n o = contents h0 n o).
Proof.
  intro L. induction n as [|n [I1 I2]]; (split; [intro p|intros [p|]]); cbn [content contents]; intro NP; try reflexivity.
  - destruct (hget h0 p) as [c|] eqn:E; [|exfalso; apply NP; reflexivity]. destruct (less_get _ _ _ _ _ L E) as [-> _].
    destruct (dat c); try reflexivity; apply I2, NP.
  - destruct (hget h0 p) as [c|] eqn:E; [|exfalso; apply NP; reflexivity]. destruct (less_get _ _ _ _ _ L E) as [-> _].
    rewrite (I1 p (obind_pan _ _ NP)). destruct (content h0 n p) as [s|e| |]; try reflexivity. cbn [obind] in *.
    rewrite (I2 _ (obind_pan _ _ NP)). reflexivity.
Qed.
Lemma fr_Content n p : fr (Content n p).
Proof.
  intros X h0 h L NP. unfold Content in *. cbn [fst snd] in *. split; [|auto]. exact (proj1 (content_less _ _ _ L n) p NP).
Qed.
#[local] Hint Resolve fr_Content : fr.
Lemma fr_nodeList n : forall d rs b rl, fr (nodeList n d rs b rl).
Proof. induction n; intros d rs b rl; cbn [nodeList]; frt. Qed.
#[local] Hint Resolve fr_nodeList : fr.
Lemma fr_CreateAttribute n d nm v : fr (CreateAttribute n d nm v).
Proof. unfold CreateAttribute, stringToNodeList. frt. Qed.
#[local] Hint Resolve fr_CreateAttribute : fr.
Lemma fr_lastAttr n : forall nm p, fr (lastAttr n nm p).
Proof. induction n; intros nm p; cbn [lastAttr]; frt. Qed.
Lemma fr_lastAttr_size nm p : fr (fun h => lastAttr (size h) nm p h).
Proof. apply (fr_size _ (fun n => lastAttr n nm p)). intros. apply fr_lastAttr. Qed.
#[local] Hint Resolve fr_lastAttr_size : fr.
Lemma fr_SetAttribute n e nm v : fr (SetAttribute n e nm v).
Proof. unfold SetAttribute. frt. Qed.
#[local] Hint Resolve fr_SetAttribute fr_SetNamespace fr_SetDocumentElement fr_SetTreeDoc : fr.
Lemma fr_run c : fr (run c).
Proof. destruct c as [[]| | | |]; cbn [run call]; frt. Qed.

(* ---- putting a tree in the place of another ---- *)
Lemma props_shape h d A (k k' : list ltree) : (k = [] <-> k' = []) -> props_ok h d A k -> props_ok h d A k'.
Proof. intros E P. destruct d; cbn [props_ok] in *; try exact P; (destruct P as [P1 P2]; split; [exact P1|apply E, P2]). Qed.
Lemma mid_nil {A} (k1 : list A) x k2 y : k1 ++ x :: k2 = [] <-> k1 ++ y :: k2 = [].
Proof. split; intro H; destruct k1; discriminate. Qed.
Lemma perm_mid {A} (x y z w u v : list A) : Permutation (y ++ u) (w ++ v) -> Permutation ((x ++ y ++ z) ++ u) ((x ++ w ++ z) ++ v).
Proof.
  intro P. rewrite <- !app_assoc. apply Permutation_app_head. rewrite (Permutation_app_comm z u), (Permutation_app_comm z v), !app_assoc.
  apply Permutation_app_tail, P.
Qed.
Lemma linked_plug h h' t s : sub t s -> forall s' par pv nx,
  linked h par pv nx t -> NoDup (ptrs t) -> root s' = root s ->
  (forall par pv nx, linked h par pv nx s -> linked h' par pv nx s') ->
  (forall z, In z (ptrs t) -> ~ In z (ptrs s) -> hget h' z = hget h z) ->
  exists t', linked h' par pv nx t' /\ root t' = root t /\ Permutation (ptrs t' ++ ptrs s) (ptrs t ++ ptrs s').
Proof.
  induction 1 as [t|p a k t s Hk S IH]; intros s' par pv nx L Nd Rt Ls Fr.
  - exists s'. split; [apply Ls, L|]. split; [exact Rt|apply Permutation_app_comm].
  - apply in_split in Hk as (k1 & k2 & ->). apply linked_eq in L as [(c & E & Lc & Pk) L].
    apply linkeds_app in L as [L1 [L2 L3]]. cbn [ptrs] in Nd. rewrite flat_map_app in Nd. cbn [flat_map] in Nd.
    apply NoDup_cons_iff in Nd as [Np Nd]. pose proof (nodup_app_r _ _ Nd) as Nk. pose proof (nodup_app_r _ _ Nk) as Nt.
    pose proof (sub_ptrs _ _ S) as Is.
    assert (Ft : forall z, In z (ptrs (N p a (k1 ++ t :: k2))) -> ~ In z (ptrs t) -> hget h' z = hget h z).
    { intros z Hz Nz. apply Fr; [exact Hz|]. intro Y. apply Nz, Is, Y. }
    destruct (IH s' _ _ _ L2 (nodup_app_l _ _ Nt) Rt Ls) as (t' & Lt' & Rt' & P).
    { intros z Hz. apply Fr. cbn [ptrs]. right. apply in_or_app. right. rewrite flat_map_app. cbn [flat_map]. rewrite !in_app_iff. tauto. }
    exists (N p a (k1 ++ t' :: k2)). refine (conj _ (conj eq_refl _)).
    + apply linked_eq. split.
      * exists c. refine (conj _ (conj _ _)).
        -- rewrite Ft; [exact E|left; reflexivity|]. intro Y. apply Np. rewrite !in_app_iff. tauto.
        -- rewrite Lc, !map_app. cbn [map]. rewrite Rt'. reflexivity.
        -- apply (props_shape _ _ _ (k1 ++ t :: k2)); [apply mid_nil|]. eapply props_frame; [exact Pk|]. intros z Hz. apply Ft.
           ++ right. apply in_or_app. left. exact Hz.
           ++ intro Y. apply (nodup_app_disj _ _ z Nd Hz). rewrite !in_app_iff. tauto.
      * apply linkeds_app. cbn [map hdo linkeds] in *. rewrite Rt'. refine (conj _ (conj Lt' _)).
        -- eapply linkeds_frame; [exact L1|]. intros z Hz. apply Ft.
           ++ right. rewrite flat_map_app. rewrite !in_app_iff. tauto.
           ++ intro Y. apply (nodup_app_disj _ _ z Nk Hz). rewrite !in_app_iff. tauto.
        -- eapply linkeds_frame; [exact L3|]. intros z Hz. apply Ft.
           ++ right. rewrite flat_map_app. cbn [flat_map]. rewrite !in_app_iff. tauto.
           ++ intro Y. exact (nodup_app_disj _ _ z Nt Y Hz).
    + cbn [ptrs app]. constructor. rewrite !flat_map_app. cbn [flat_map]. rewrite <- !app_assoc. apply Permutation_app_head.
      rewrite !app_assoc, <- (app_assoc _ (ptrs t')), <- (app_assoc _ (ptrs t)). apply perm_mid, P.
Qed.

(* what Replace and the loss of the old node's subtree lead to *)
Definition exchanged (h : heap) (p : ptr) (pv nx : option ptr) (o q : ptr) (X : list ptr) (h' : heap) : Prop :=
  nxt h' = nxt h /\ exists h1, relinked h p pv nx o q h1 /\
  (forall x, In x X -> hget h' x = None) /\ (forall x, ~ In x X -> hget h' x = hget h1 x).

Lemma linked_cells h par pv nx t c : linked h par pv nx t -> hget h (root t) = Some c -> exists f l, lk c = Lk f l par nx pv.
Proof. destruct t as [p a k]. intros L E. apply linked_eq in L as [(c' & E' & Lc & _) _]. cbn [root] in E. rewrite E in E'. injection E' as <-. eauto. Qed.

Lemma plug_kids h h' p A k1 to k2 tq par pv nx :
  linked h par pv nx (N p A (k1 ++ to :: k2)) -> linked h None None None tq ->
  NoDup (ptrs (N p A (k1 ++ to :: k2)) ++ ptrs tq) ->
  exchanged h p (lasto (map root k1)) (hd_error (map root k2)) (root to) (root tq) (ptrs to) h' ->
  linked h' par pv nx (N p A (k1 ++ tq :: k2)).
Proof.
  intros L Lq Nd (_ & h1 & [_ G] & Gx & Gy).
  cbn [ptrs app] in Nd. rewrite flat_map_app in Nd. cbn [flat_map] in Nd. rewrite <- !app_assoc in Nd.
  apply NoDup_cons_iff in Nd as [Np Nd].
  pose proof (nodup_app_r _ _ Nd) as Nk. pose proof (nodup_app_r _ _ Nk) as N2. pose proof (nodup_app_r _ _ N2) as N3.
  pose proof (nodup_app_r _ _ N3) as Nq.
  apply linked_eq in L as [(c & E & Lc & Pk) L]. apply linkeds_app in L as [L1 [L2 L3]]. cbn [map hdo] in L1, L2, L3.
  (* where the pieces are *)
  assert (Rk1 : forall x, In x (map root k1) -> In x (flat_map ptrs k1)).
  { intros x Hx. apply in_map_iff in Hx as (u & <- & Hu). apply in_flat_map. exists u. split; [exact Hu|apply in_root_ptrs]. }
  assert (Rk2 : forall x, In x (map root k2) -> In x (flat_map ptrs k2)).
  { intros x Hx. apply in_map_iff in Hx as (u & <- & Hu). apply in_flat_map. exists u. split; [exact Hu|apply in_root_ptrs]. }
  assert (La : forall x, optr_eqb (Some x) (lasto (map root k1)) = true -> In x (flat_map ptrs k1)).
  { intros x Hx. apply optr_eqb_eq in Hx. apply Rk1, lasto_in. symmetry. exact Hx. }
  assert (Hb : forall x, optr_eqb (Some x) (hd_error (map root k2)) = true -> In x (flat_map ptrs k2)).
  { intros x Hx. apply optr_eqb_eq in Hx. apply Rk2. destruct (map root k2); [discriminate|]. injection Hx as ->. left. reflexivity. }
  pose proof (in_root_ptrs tq) as Iq. pose proof (in_root_ptrs to) as Io.
  (* cells that stay *)
  assert (St : forall x, ~ In x (ptrs to) -> x <> root tq -> x <> p ->
             optr_eqb (Some x) (lasto (map root k1)) = false -> optr_eqb (Some x) (hd_error (map root k2)) = false -> hget h' x = hget h x).
  { intros x X1 X2 X3 X4 X5. rewrite Gy, G by exact X1. destruct (Pos.eqb_spec x (root tq)); [contradiction|].
    destruct (Pos.eqb_spec x p); [contradiction|]. rewrite X4, X5. cbn [andb]. destruct (hget h x) as [cx|]; [|reflexivity].
    cbn [option_map]. f_equal. apply with_lk_id, lk_eta. }
  assert (Bf : forall (x : ptr) b, (b = true -> False) -> b = false) by (intros _ [] Hf; [exfalso; apply Hf; reflexivity|reflexivity]).
  assert (St' : forall x, ~ In x (ptrs to) -> x <> root tq -> x <> p -> ~ In x (flat_map ptrs k1) -> ~ In x (flat_map ptrs k2) -> hget h' x = hget h x).
  { intros x X1 X2 X3 X4 X5. apply St; try assumption; apply (Bf x); intro Y; [apply X4, La, Y|apply X5, Hb, Y]. }
  assert (D1 : forall x, In x (flat_map ptrs k1) -> ~ In x (ptrs to) /\ ~ In x (flat_map ptrs k2) /\ ~ In x (ptrs tq) /\ x <> p).
  { intros x Hx. refine (conj _ (conj _ (conj _ _))); [intro Y; apply (nodup_app_disj _ _ x Nk Hx); rewrite !in_app_iff; tauto..|].
    intros ->. apply Np. rewrite !in_app_iff. tauto. }
  assert (D2 : forall x, In x (flat_map ptrs k2) -> ~ In x (ptrs to) /\ ~ In x (flat_map ptrs k1) /\ ~ In x (ptrs tq) /\ x <> p).
  { intros x Hx. refine (conj _ (conj _ (conj _ _))).
    - intro Y. apply (nodup_app_disj _ _ x N2 Y). rewrite !in_app_iff. tauto.
    - intro Y. apply (nodup_app_disj _ _ x Nk Y). rewrite !in_app_iff. tauto.
    - intro Y. exact (nodup_app_disj _ _ x N3 Hx Y).
    - intros ->. apply Np. rewrite !in_app_iff. tauto. }
  assert (Dq : forall x, In x (ptrs tq) -> ~ In x (ptrs to) /\ ~ In x (flat_map ptrs k1) /\ ~ In x (flat_map ptrs k2) /\ x <> p).
  { intros x Hx. refine (conj _ (conj _ (conj _ _))).
    - intro Y. apply (nodup_app_disj _ _ x N2 Y). rewrite !in_app_iff. tauto.
    - intro Y. apply (nodup_app_disj _ _ x Nk Y). rewrite !in_app_iff. tauto.
    - intro Y. exact (nodup_app_disj _ _ x N3 Y Hx).
    - intros ->. apply Np. rewrite !in_app_iff. tauto. }
  assert (Dp : ~ In p (ptrs to) /\ ~ In p (flat_map ptrs k1) /\ ~ In p (flat_map ptrs k2) /\ ~ In p (ptrs tq)).
  { refine (conj _ (conj _ (conj _ _))); intro Y; apply Np; rewrite !in_app_iff; tauto. }
  destruct Dp as (Dp1 & Dp2 & Dp3 & Dp4).
  assert (Pq : p <> root tq) by (intros Y; apply Dp4; rewrite Y; exact Iq).
  destruct (Dq _ Iq) as (Q1 & Q2 & Q3 & Q4).
  apply linked_eq. split; [|apply linkeds_app; cbn [map hdo linkeds]; refine (conj _ (conj _ _))].
  - (* the parent *)
    assert (Ep : hget h' p = Some (with_lk (fun l => Lk (hd_error (map root (k1 ++ tq :: k2))) (lasto (map root (k1 ++ tq :: k2))) par nx pv) c)).
    { rewrite Gy, G by exact Dp1. destruct (Pos.eqb_spec p (root tq)); [contradiction|]. rewrite E, Pos.eqb_refl. cbn [option_map andb]. f_equal.
      unfold with_lk. f_equal. rewrite Lc. cbn [l_first l_last l_par l_next l_prev].
      rewrite (Bf p (optr_eqb (Some p) (lasto (map root k1)))) by (intro Y; apply Dp2, La, Y).
      rewrite (Bf p (optr_eqb (Some p) (hd_error (map root k2)))) by (intro Y; apply Dp3, Hb, Y).
      rewrite !map_app. cbn [map]. rewrite !hd_mid, !lasto_mid. f_equal.
      - destruct (map root k1) as [|y r] eqn:Ek; [cbn; rewrite Pos.eqb_refl; reflexivity|]. rewrite optr_eqb_neq; [reflexivity|].
        intro Y. injection Y as ->. destruct (D1 (root to)) as (X & _); [apply Rk1; left; reflexivity|contradiction].
      - unfold lsto. destruct (lasto (map root k2)) as [z|] eqn:El; [|cbn; rewrite Pos.eqb_refl; reflexivity].
        rewrite optr_eqb_neq; [reflexivity|]. intro Y. injection Y as ->.
        destruct (D2 (root to)) as (X & _); [apply Rk2, lasto_in, El|contradiction]. }
    eexists. split; [exact Ep|]. cbn [with_lk lk dat]. split; [reflexivity|].
    apply (props_shape _ _ _ (k1 ++ to :: k2)); [apply mid_nil|]. eapply props_frame; [exact Pk|]. intros z Hz.
    apply St'; try (intro Y; apply (nodup_app_disj _ _ z Nd Hz); rewrite !in_app_iff; tauto).
    + intros ->. apply (nodup_app_disj _ _ _ Nd Hz). rewrite !in_app_iff. tauto.
    + intros ->. apply Np. rewrite !in_app_iff. tauto.
  - (* before *)
    destruct (snoc_cases k1) as [->|(k0 & tz & ->)]; [exact I|].
    apply linkeds_app in L1 as [L0 [Lz _]]. cbn [map hdo] in L0, Lz. apply linkeds_app. cbn [map hdo linkeds].
    rewrite flat_map_app in Nk, D1. cbn [flat_map] in Nk, D1. rewrite app_nil_r in Nk, D1.
    assert (Nz : NoDup (flat_map ptrs k0 ++ ptrs tz)) by (rewrite !app_assoc in Nk; do 3 apply nodup_app_l in Nk; exact Nk).
    assert (Elast : lasto (map root (k0 ++ [tz])) = Some (root tz)) by (rewrite map_app; cbn [map]; apply lasto_snoc).
    assert (Sz : forall x, In x (flat_map ptrs k0) \/ In x (ptrs tz) -> x <> root tz -> hget h' x = hget h x).
    { intros x Hx Hz. destruct (D1 x) as (X1 & X2 & X3 & X4); [apply in_or_app; tauto|].
      apply St; try assumption; [intros ->; contradiction| |apply (Bf x); intro Y; apply X2, Hb, Y].
      rewrite Elast. apply optr_eqb_neq. congruence. }
    refine (conj _ (conj _ I)).
    + eapply linkeds_frame; [exact L0|]. intros x Hx. apply Sz; [tauto|]. intros ->.
      exact (nodup_app_disj _ _ _ Nz Hx (in_root_ptrs tz)).
    + eapply linked_root; [exact Lz| |].
      * intros cz Ez. destruct (linked_cells _ _ _ _ _ _ Lz Ez) as (f & l & Lkz).
        destruct (D1 (root tz)) as (X1 & X2 & X3 & X4); [apply in_or_app; right; apply in_root_ptrs|].
        rewrite Gy, G by exact X1. destruct (Pos.eqb_spec (root tz) (root tq)) as [Y|]; [exfalso; apply X3; rewrite Y; exact Iq|].
        destruct (Pos.eqb_spec (root tz) p); [contradiction|]. rewrite Ez, Elast, optr_eqb_refl.
        rewrite (Bf (root tz) (optr_eqb (Some (root tz)) (hd_error (map root k2)))) by (intro Y; apply X2, Hb, Y).
        cbn [option_map andb]. eexists. refine (conj eq_refl (conj eq_refl _)). cbn [with_lk lk]. rewrite Lkz. reflexivity.
      * intros x Hx. assert (Hx' : In x (ptrs tz)) by (destruct tz; right; exact Hx). apply Sz; [tauto|]. intros ->.
        apply nodup_app_r in Nz. destruct tz as [pz az kz]. cbn [ptrs root tl] in *. inversion Nz. contradiction.
  - (* the new child *)
    eapply linked_root; [exact Lq| |].
    + intros cq Eq. rewrite Gy, G, Pos.eqb_refl, Eq by exact Q1. cbn [option_map]. eexists. refine (conj eq_refl (conj eq_refl _)).
      cbn [with_lk lk]. rewrite lsto_none. destruct k2; reflexivity.
    + intros x Hx. assert (Hx' : In x (ptrs tq)) by (destruct tq; right; exact Hx). destruct (Dq x Hx') as (X1 & X2 & X3 & X4).
      apply St'; try assumption. intros ->. destruct tq as [pz az kz]. cbn [ptrs root tl] in *. inversion Nq. contradiction.
  - (* after *)
    destruct k2 as [|tz k0]; [exact I|]. cbn [map hdo linkeds hd_error flat_map] in *. destruct L3 as [Lz L0].
    pose proof (nodup_app_l _ _ N3) as Nz.
    assert (Sz : forall x, In x (ptrs tz) \/ In x (flat_map ptrs k0) -> x <> root tz -> hget h' x = hget h x).
    { intros x Hx Hz. destruct (D2 x) as (X1 & X2 & X3 & X4); [apply in_or_app; tauto|].
      apply St; try assumption; [intros ->; contradiction|apply (Bf x); intro Y; apply X2, La, Y|apply optr_eqb_neq; congruence]. }
    split.
    + eapply linked_root; [exact Lz| |].
      * intros cz Ez. destruct (linked_cells _ _ _ _ _ _ Lz Ez) as (f & l & Lkz).
        destruct (D2 (root tz)) as (X1 & X2 & X3 & X4); [apply in_or_app; left; apply in_root_ptrs|].
        rewrite Gy, G by exact X1. destruct (Pos.eqb_spec (root tz) (root tq)) as [Y|]; [exfalso; apply X3; rewrite Y; exact Iq|].
        destruct (Pos.eqb_spec (root tz) p); [contradiction|]. rewrite Ez, optr_eqb_refl.
        rewrite (Bf (root tz) (optr_eqb (Some (root tz)) (lasto (map root k1)))) by (intro Y; apply X2, La, Y).
        cbn [option_map andb]. eexists. refine (conj eq_refl (conj eq_refl _)). cbn [with_lk lk]. rewrite Lkz. reflexivity.
      * intros x Hx. assert (Hx' : In x (ptrs tz)) by (destruct tz; right; exact Hx). apply Sz; [tauto|]. intros ->.
        apply nodup_app_l in Nz. destruct tz as [pz az kz]. cbn [ptrs root tl] in *. inversion Nz. contradiction.
    + eapply linkeds_frame; [exact L0|]. intros x Hx. apply Sz; [tauto|]. intros ->.
      exact (nodup_app_disj _ _ _ Nz (in_root_ptrs tz) Hx).
Qed.

Lemma linked_children h F G p A k par pv nx cs : forest h F G -> linked h par pv nx (N p A k) -> children h p cs -> cs = map root k.
Proof.
  intros FH L (c & E & P & _). apply linked_eq in L as [(c' & E' & Lc & _) L]. rewrite E in E'. injection E' as <-.
  rewrite Lc in P. cbn [l_first] in P. eapply path_fun; [exact P|]. rewrite <- hdo_none. eapply linkeds_path, L.
Qed.
Lemma map_split {A B} (f : A -> B) l a o b : map f l = a ++ o :: b ->
  exists l1 x l2, l = l1 ++ x :: l2 /\ map f l1 = a /\ f x = o /\ map f l2 = b.
Proof.
  revert l. induction a as [|y a IH]; intros [|z l] E; cbn [app map] in E; try discriminate; injection E as E1 E2.
  - exists [], z, l. auto.
  - destruct (IH l E2) as (l1 & x & l2 & -> & <- & <- & <-). exists (z :: l1), x, l2. cbn. rewrite E1. auto.
Qed.
Lemma nodup_perm_r {A} (a b : list A) : NoDup (a ++ b) -> NoDup a /\ forall x, In x a -> ~ In x b.
Proof. intro H. split; [eapply nodup_app_l, H|]. intros x Hx. exact (nodup_app_disj _ _ x H Hx). Qed.

Lemma perm_pieces {A} (t tq g w t' to : list A) : Permutation (t' ++ to) (t ++ tq) -> Permutation (t ++ g ++ tq ++ w) (t' ++ g ++ w ++ to).
Proof.
  intro P. assert (R : forall x y z u : list A, Permutation (x ++ y ++ z ++ u) ((x ++ z) ++ y ++ u)).
  { intros x y z u. rewrite <- app_assoc. apply Permutation_app_head. rewrite !app_assoc. apply Permutation_app_tail, Permutation_app_comm. }
  rewrite (Permutation_app_comm w to), !R, P. reflexivity.
Qed.
Lemma forest_exchanged h F G p a o b q : forest h F G -> attachable h p q -> children h p (a ++ o :: b) ->
  exists l, (forall x, In x l <-> within h o x) /\ (forall x, In x l -> hget h x <> None) /\
    forall h', exchanged h p (lasto a) (hd_error b) o q l h' -> exists F', forest h' F' G.
Proof.
  intros FH ((cp & Ep) & NA & Hq & NAn) Ch.
  pose proof (forest_node _ _ _ _ _ FH Ep NA) as Hp.
  destruct (two_groups _ _ _ _ _ FH Hp Hq NAn) as (ga & t & gb & tq & F' & Pm & Ht & <-).
  pose proof (forest_perm _ _ _ _ Pm FH) as FH'. clear FH Pm Hp. rename FH' into FH.
  destruct (nodes_sub _ _ Ht) as (A & k & S).
  pose proof (f_lk _ _ _ FH) as Lk. apply Forall_cons_iff in Lk as [Lg Lk]. apply Forall_cons_iff in Lk as [Lq Lk].
  cbn [linkeds map hdo] in Lq. destruct Lq as [Lq _]. apply linkeds_app in Lg as [La [Lt Lb]]. cbn [map hdo] in La, Lt, Lb.
  destruct (linked_sub _ _ _ S _ _ _ Lt) as (par & pv & nx & Ls).
  pose proof (linked_children _ _ _ _ _ _ _ _ _ _ FH Ls Ch) as Ek. symmetry in Ek.
  apply map_split in Ek as (k1 & to & k2 & -> & <- & <- & <-).
  assert (Sto : sub t to).
  { clear - S. remember (N p A (k1 ++ to :: k2)) as s eqn:E. induction S as [t|x y z t s Hk S IH]; subst.
    - econstructor; [apply in_elt|constructor].
    - econstructor; [exact Hk|]. apply IH. reflexivity. }
  destruct (linked_sub _ _ _ Sto _ _ _ Lt) as (par' & pv' & nx' & Lto).
  assert (Ito : incl (nodes to) (fnodes ((ga ++ t :: gb) :: [tq] :: F'))).
  { intros x Hx. apply (sub_nodes _ _ Sto) in Hx. unfold fnodes. cbn [flat_map]. apply in_or_app. left. rewrite flat_map_app. cbn [flat_map].
    rewrite !in_app_iff. tauto. }
  exists (ptrs to). split; [exact (tree_within _ _ _ _ _ _ _ FH Lto Ito)|]. split.
  { intros x Hx. apply (forest_ptr_live _ _ _ _ FH). apply in_or_app. left. unfold fptrs. cbn [flat_map]. apply in_or_app. left.
    rewrite flat_map_app. cbn [flat_map]. rewrite !in_app_iff. right. left. apply (sub_ptrs _ _ Sto), Hx. }
  intros h' Ex. pose proof (f_nd _ _ _ FH) as Nd. unfold fptrs in Nd. cbn [flat_map] in Nd. fold (fptrs F') in Nd.
  rewrite app_nil_r, flat_map_app in Nd. cbn [flat_map] in Nd. rewrite <- !app_assoc in Nd.
  set (s' := N p A (k1 ++ tq :: k2)).
  assert (Ntq : NoDup (ptrs t ++ ptrs tq)).
  { apply nodup_app_r in Nd. clear - Nd. revert Nd. generalize (ptrs t) (flat_map ptrs gb) (ptrs tq) (fptrs F' ++ attptrs G).
    intros x y z w Nd. apply nodup_app_l with (b := y ++ w). eapply Permutation_NoDup; [|exact Nd]. rewrite <- app_assoc.
    apply Permutation_app_head. rewrite !app_assoc. apply Permutation_app_tail, Permutation_app_comm. }
  pose proof (sub_ptrs _ _ S) as Is.
  assert (Ns : NoDup (ptrs (N p A (k1 ++ to :: k2)) ++ ptrs tq)).
  { clear - S Ntq Is. assert (N1 : NoDup (ptrs (N p A (k1 ++ to :: k2)))).
    { apply nodup_app_l in Ntq. remember (N p A (k1 ++ to :: k2)) as s eqn:E. clear Is E. induction S as [t|x y z t s Hk S IH]; [exact Ntq|].
      apply IH. eapply nodup_kid; eassumption. }
    pose proof (nodup_app_r _ _ Ntq) as N2. revert N1 Is. generalize (ptrs (N p A (k1 ++ to :: k2))). intros l N1 Is.
    induction N1 as [|x l Hx N1 IH]; [exact N2|]. cbn [app]. constructor; [|apply IH; intros z Hz; apply Is; right; exact Hz].
    intro Y. apply in_app_or in Y as [Y|Y]; [contradiction|]. apply (nodup_app_disj _ _ x Ntq); [apply Is; left; reflexivity|exact Y]. }
  (* cells outside the two trees stay *)
  pose proof Ex as (_ & h1 & [_ G1] & Gx & Gy).
  assert (Kin : forall u, In u (k1 ++ to :: k2) -> In (root u) (ptrs (N p A (k1 ++ to :: k2)))).
  { intros u Hu. cbn [ptrs]. right. apply in_or_app. right. apply in_flat_map. exists u. split; [exact Hu|apply in_root_ptrs]. }
  assert (Out : forall z, ~ In z (ptrs (N p A (k1 ++ to :: k2))) -> z <> root tq -> hget h' z = hget h z).
  { intros z Z1 Z2. rewrite Gy.
    - rewrite G1. destruct (Pos.eqb_spec z (root tq)); [contradiction|]. destruct (Pos.eqb_spec z p) as [->|]; [exfalso; apply Z1; left; reflexivity|].
      rewrite !optr_eqb_neq.
      + cbn [andb]. destruct (hget h z) as [c|]; [|reflexivity]. cbn [option_map]. f_equal. apply with_lk_id, lk_eta.
      + intro Y. destruct k2 as [|u k2]; [discriminate|]. injection Y as ->. apply Z1, Kin. apply in_or_app. right. right. left. reflexivity.
      + intro Y. symmetry in Y. apply lasto_in, in_map_iff in Y as (u & <- & Hu). apply Z1, Kin. apply in_or_app. tauto.
    - intro Y. apply Z1. cbn [ptrs]. right. apply in_or_app. right. rewrite flat_map_app. cbn [flat_map]. rewrite !in_app_iff. tauto. }
  destruct (linked_plug h h' t _ S s' _ _ _ Lt (nodup_app_l _ _ Ntq) eq_refl) as (t' & Lt' & Rt' & P).
  { intros par0 pv0 nx0 L0. eapply plug_kids; eassumption. }
  { intros z Hz Nz. apply Out; [exact Nz|]. intros ->. exact (nodup_app_disj _ _ _ Ntq Hz (in_root_ptrs tq)). }
  assert (P' : Permutation (ptrs t' ++ ptrs to) (ptrs t ++ ptrs tq)).
  { unfold s' in P. cbn [ptrs] in P. rewrite !flat_map_app in P. cbn [flat_map] in P.
    assert (W : forall X w Y (u v x y z : list ptr), Permutation (X ++ w :: u ++ x ++ v ++ y) (Y ++ w :: u ++ x ++ z ++ y) -> Permutation (X ++ v) (Y ++ z)).
    { clear. intros X w Y u v x y z P. apply Permutation_app_inv_r with (l := w :: u ++ x ++ y).
      assert (R : forall Z v, Permutation ((Z ++ v) ++ w :: u ++ x ++ y) (Z ++ w :: u ++ x ++ v ++ y)).
      { clear. intros Z v. rewrite <- app_assoc. apply Permutation_app_head. rewrite <- Permutation_middle. constructor.
        rewrite (app_assoc u x y), (app_assoc u x (v ++ y)). generalize (u ++ x). intro l.
        rewrite !app_assoc. apply Permutation_app_tail, Permutation_app_comm. }
      rewrite !R. exact P. }
    eapply W. exact P. }
  assert (PP : Permutation (fptrs ((ga ++ t :: gb) :: [tq] :: F') ++ attptrs G) ((fptrs ((ga ++ t' :: gb) :: F') ++ attptrs G) ++ ptrs to)).
  { unfold fptrs. cbn [flat_map]. fold (fptrs F'). rewrite app_nil_r, !flat_map_app. cbn [flat_map]. rewrite <- !app_assoc.
    apply Permutation_app_head. rewrite (app_assoc (fptrs F')). apply perm_pieces, P'. }
  pose proof (Permutation_NoDup PP (f_nd _ _ _ FH)) as Nn. destruct (nodup_perm_r _ _ Nn) as [Nn1 Nn2].
  (* what lies outside t and tq *)
  assert (Sep : forall z, In z (flat_map ptrs ga) \/ In z (flat_map ptrs gb) \/ In z (fptrs F') \/ In z (attptrs G) -> hget h' z = hget h z).
  { intros z Hz. assert (Dz : ~ In z (ptrs t) /\ ~ In z (ptrs tq)).
    { clear - Nd Hz. split; intro Y.
      - destruct Hz as [Hz|Hz]; [apply (nodup_app_disj _ _ z Nd Hz); rewrite !in_app_iff; tauto|].
        apply nodup_app_r in Nd. apply (nodup_app_disj _ _ z Nd Y). rewrite !in_app_iff. tauto.
      - destruct Hz as [Hz|[Hz|Hz]]; [apply (nodup_app_disj _ _ z Nd Hz); rewrite !in_app_iff; tauto|..].
        + do 2 apply nodup_app_r in Nd. apply (nodup_app_disj _ _ z Nd Hz). rewrite !in_app_iff. tauto.
        + do 3 apply nodup_app_r in Nd. apply (nodup_app_disj _ _ z Nd Y). rewrite !in_app_iff. tauto. }
    destruct Dz as [D1 D2]. apply Out; [intro Y; apply D1, Is, Y|]. intros ->. apply D2, in_root_ptrs. }
  exists ((ga ++ t' :: gb) :: F'). constructor.
  - (* pointers stay below the next one *)
    intros x c E. destruct Ex as (-> & _). assert (Hx : hget h x <> None).
    { destruct (pos_in x (ptrs to)) as [Y|Y]; [rewrite Gx in E by exact Y; discriminate|]. rewrite Gy, G1 in E by exact Y. intro Z.
      destruct (Pos.eqb_spec x (root tq)) as [W|]; [rewrite <- W, Z in E|rewrite Z in E]; discriminate. }
    destruct (hget h x) eqn:E0; [|contradiction]. exact (f_ok _ _ _ FH _ _ E0).
  - constructor.
    + apply linkeds_app. cbn [map hdo linkeds]. rewrite Rt'. refine (conj _ (conj Lt' _)).
      * eapply linkeds_frame; [exact La|]. intros z Hz. apply Sep. tauto.
      * eapply linkeds_frame; [exact Lb|]. intros z Hz. apply Sep. tauto.
    + eapply groups_frame; [exact Lk|]. intros z Hz. apply Sep. tauto.
  - eapply ga_frame; [exact (f_ga _ _ _ FH)|]. intros z Hz. apply Sep. tauto.
  - exact Nn1.
  - intros x Hx. destruct (pos_in x (ptrs to)) as [Y|Y]; [exfalso; apply Hx, Gx, Y|].
    assert (Hx' : hget h x <> None).
    { rewrite Gy, G1 in Hx by exact Y. intro Z. apply Hx. destruct (Pos.eqb_spec x (root tq)) as [W|]; [rewrite <- W, Z|rewrite Z]; reflexivity. }
    pose proof (Permutation_in _ PP (f_all _ _ _ FH _ Hx')) as W. apply in_app_or in W. tauto.
Qed.

(* ---- SetTreeDoc always comes to an end and changes owners only ---- *)
Definition steady (h h' : heap) : Prop :=
  nxt h' = nxt h /\
  forall x, match hget h x, hget h' x with
            | None, None => True
            | Some c, Some c' => lk c' = lk c /\ dat c' = dat c
            | _, _ => False
            end.
Lemma steady_refl h : steady h h.
Proof. split; [reflexivity|]. intro x. destruct (hget h x); auto. Qed.
Lemma steady_trans h h1 h2 : steady h h1 -> steady h1 h2 -> steady h h2.
Proof.
  intros [N1 A] [N2 B]. split; [congruence|]. intro x. specialize (A x). specialize (B x).
  destruct (hget h x), (hget h1 x), (hget h2 x); try contradiction; auto. destruct A, B. split; congruence.
Qed.
Lemma steady_similar h h' : steady h h' -> similar h h'.
Proof.
  intros [N A]. split; [exact N|]. intro x. specialize (A x). destruct (hget h x), (hget h' x); auto.
  destruct A as [A ->]. split; [exact A|apply same_kind_refl].
Qed.
Lemma steady_get h h' x c : steady h h' -> hget h x = Some c -> exists c', hget h' x = Some c' /\ lk c' = lk c.
Proof. intros [_ A] E. specialize (A x). rewrite E in A. destruct (hget h' x); [|contradiction]. destruct A. eauto. Qed.
Lemma steady_set h p d c : hget h p = Some c -> exists h', setOwner p d h = (Ret tt, h') /\ steady h h'.
Proof.
  intro E. eexists. split; [apply upd_run, E|]. split; [reflexivity|]. intro x. rewrite hget_hset.
  destruct (Pos.eqb_spec x p) as [->|]; [rewrite E; auto|]. destruct (hget h x); auto.
Qed.
Lemma values_run d a : forall ks pv h n, vchain h a pv ks -> (2 * List.length ks <= n)%nat ->
  exists h', setListDoc n d (hd_error ks) h = (Ret tt, h') /\ steady h h'.
Proof.
  induction ks as [|x r IH]; intros pv h n V B.
  - exists h. split; [destruct n; reflexivity|apply steady_refl].
  - cbn [vchain] in V. destruct V as [(c & E & Lc & s & D) V].
    cbn [List.length] in B. destruct n as [|[|n]]; try lia. cbn [hd_error setListDoc].
    rewrite (bind_getc _ _ _ _ E). cbv beta.
    assert (St : exists h1, (if optr_eqb (owner c) d then hret tt else setTreeDoc (S n) d x) h = (Ret tt, h1) /\ steady h h1).
    { destruct (optr_eqb (owner c) d) eqn:Eo; [exists h; split; [reflexivity|apply steady_refl]|].
      cbn [setTreeDoc]. rewrite (bind_getc _ _ _ _ E). cbv beta. rewrite Eo, D.
      erewrite hbind_ret; [|reflexivity]. rewrite (bind_getc _ _ _ _ E). cbv beta. rewrite Lc. cbn [l_first].
      erewrite hbind_ret; [|destruct n; reflexivity]. apply (steady_set _ _ _ _ E). }
    destruct St as (h1 & R1 & O1). rewrite (hbind_ret _ _ _ _ _ R1).
    destruct (steady_get _ _ _ _ O1 E) as (c1 & E1 & L1). rewrite (bind_getc _ _ _ _ E1). cbv beta. rewrite L1, Lc. cbn [l_next].
    destruct (IH (Some x) h1 (S n)) as (h2 & R2 & O2); [eapply vchain_similar; [apply steady_similar, O1|exact V]|lia|].
    exists h2. split; [exact R2|]. eapply steady_trans; eassumption.
Qed.
Lemma attrs_run d : forall A pv h n, achain h pv A -> (2 * List.length (attptrs A) <= n)%nat ->
  exists h', setAttrsDoc n d (hd_error (map fst A)) h = (Ret tt, h') /\ steady h h'.
Proof.
  induction A as [|[a ks] r IH]; intros pv h n V B.
  - exists h. split; [destruct n; reflexivity|apply steady_refl].
  - cbn [achain] in V. destruct V as [(c & E & Lc & nm & df & D) [Vk V]].
    change (attptrs ((a, ks) :: r)) with (a :: ks ++ attptrs r) in *.
    cbn [List.length] in B. rewrite app_length in B. destruct n as [|n]; [lia|]. cbn [map fst hd_error setAttrsDoc].
    rewrite (bind_getc _ _ _ _ E). cbv beta. rewrite D.
    destruct (steady_set h a d c E) as (h1 & R1 & O1). rewrite (hbind_ret _ _ _ _ _ R1).
    destruct (steady_get _ _ _ _ O1 E) as (c1 & E1 & L1). rewrite (bind_getc _ _ _ _ E1). cbv beta. rewrite L1, Lc. cbn [l_first].
    destruct (values_run d a ks None h1 n) as (h2 & R2 & O2);
      [eapply vchain_similar; [apply steady_similar, O1|exact Vk]|lia|].
    rewrite (hbind_ret _ _ _ _ _ R2).
    destruct (steady_get _ _ _ _ O2 E1) as (c2 & E2 & L2). rewrite (bind_getc _ _ _ _ E2). cbv beta. rewrite L2, L1, Lc. cbn [l_next].
    destruct (IH (Some a) h2 n) as (h3 & R3 & O3).
    + eapply achain_similar; [apply steady_similar, O2|]. eapply achain_similar; [apply steady_similar, O1|exact V].
    + lia.
    + exists h3. split; [exact R3|]. eapply steady_trans; [|exact O3]. eapply steady_trans; eassumption.
Qed.
Lemma kids_run d par : forall l,
  (forall t, In t l -> forall h pv nx n, linked h par pv nx t -> (2 * List.length (ptrs t) <= S n)%nat ->
     exists h', setTreeDoc n d (root t) h = (Ret tt, h') /\ steady h h') ->
  forall h pv n, linkeds h par pv None l -> (2 * List.length (flat_map ptrs l) <= n)%nat ->
  exists h', setListDoc n d (hd_error (map root l)) h = (Ret tt, h') /\ steady h h'.
Proof.
  induction l as [|t r IHr]; intros IH h pv n L B.
  - exists h. split; [destruct n; reflexivity|apply steady_refl].
  - cbn [linkeds] in L. destruct L as [L1 L2]. cbn [flat_map] in *. rewrite app_length in B.
    assert (1 <= List.length (ptrs t))%nat by (destruct t; cbn; lia).
    destruct n as [|n]; [lia|]. cbn [map hd_error setListDoc].
    assert (Ht : exists p a k, t = N p a k) by (destruct t; eauto). destruct Ht as (p & a & k & Et).
    pose proof L1 as L1'. rewrite Et in L1'. apply linked_eq in L1' as [(c & E & Lc & _) _].
    assert (Er : root t = p) by (rewrite Et; reflexivity). rewrite Er. rewrite (bind_getc _ _ _ _ E). cbv beta.
    assert (St : exists h1, (if optr_eqb (owner c) d then hret tt else setTreeDoc n d p) h = (Ret tt, h1) /\ steady h h1).
    { destruct (optr_eqb (owner c) d) eqn:Eo; [exists h; split; [reflexivity|apply steady_refl]|].
      rewrite <- Er. eapply IH; [left; reflexivity|exact L1|lia]. }
    destruct St as (h1 & R1 & O1). rewrite (hbind_ret _ _ _ _ _ R1).
    destruct (steady_get _ _ _ _ O1 E) as (c1 & E1 & Lc1). rewrite (bind_getc _ _ _ _ E1). cbv beta. rewrite Lc1, Lc. cbn [l_next].
    rewrite hdo_none.
    destruct (IHr (fun u Hu => IH u (or_intror Hu)) h1 (Some (root t)) n) as (h2 & R2 & O2).
    + eapply linkeds_similar; [apply steady_similar, O1|]. exact L2.
    + lia.
    + exists h2. split; [exact R2|]. eapply steady_trans; eassumption.
Qed.
Lemma tree_run d t : forall h par pv nx n, linked h par pv nx t -> (2 * List.length (ptrs t) <= S n)%nat ->
  exists h', setTreeDoc n d (root t) h = (Ret tt, h') /\ steady h h'.
Proof.
  induction t as [p a k IH] using ltree_ind'. intros h par pv nx n L B.
  pose proof L as L'. apply linked_eq in L' as [(c & E & Lc & Pk) K]. cbn [root].
  cbn [ptrs List.length] in B. rewrite app_length in B. destruct n as [|n]; [lia|]. cbn [setTreeDoc].
  rewrite (bind_getc _ _ _ _ E). cbv beta. destruct (optr_eqb (owner c) d) eqn:Eo; [exists h; split; [reflexivity|apply steady_refl]|].
  assert (St : exists h1, (match dat c with DElem _ _ _ props => setAttrsDoc n d props | _ => hret tt end) h = (Ret tt, h1) /\ steady h h1).
  { destruct (dat c) eqn:D; cbn [props_ok] in Pk; try (exists h; split; [reflexivity|apply steady_refl]).
    destruct Pk as [-> Ac]. eapply attrs_run; [exact Ac|lia]. }
  destruct St as (h1 & R1 & O1). rewrite (hbind_ret _ _ _ _ _ R1).
  destruct (steady_get _ _ _ _ O1 E) as (c1 & E1 & L1). rewrite (bind_getc _ _ _ _ E1). cbv beta. rewrite L1, Lc. cbn [l_first].
  rewrite Forall_forall in IH.
  destruct (kids_run d (Some p) k) with (h := h1) (pv := @None ptr) (n := n) as (h2 & R2 & O2).
  + intros t Ht h0 pv0 nx0 n0 Lt. eapply IH; eassumption.
  + eapply linkeds_similar; [apply steady_similar, O1|exact K].
  + lia.
  + rewrite (hbind_ret _ _ _ _ _ R2). destruct (steady_get _ _ _ _ O2 E1) as (c2 & E2 & _).
    destruct (steady_set h2 p d c2 E2) as (h3 & R3 & O3). exists h3. split; [exact R3|].
    eapply steady_trans; [|exact O3]. eapply steady_trans; eassumption.
Qed.

(* ---- one call ---- *)
Lemma drop_nil h : drop [] h = h.
Proof. destruct h. reflexivity. Qed.
Lemma hget_drop X h x : (In x X -> hget (drop X h) x = None) /\ (~ In x X -> hget (drop X h) x = hget h x).
Proof.
  unfold drop, hget. cbn [cells]. induction X as [|y X [I1 I2]]; cbn [fold_right].
  - split; [intros []|reflexivity].
  - destruct (Pos.eq_dec x y) as [->|Hne].
    + rewrite PositiveMap.grs. split; [reflexivity|]. intro H. exfalso. apply H. left. reflexivity.
    + rewrite PositiveMap.gro by exact Hne. split.
      * intros [H|H]; [congruence|auto].
      * intro H. apply I2. intro H'. apply H. right. exact H'.
Qed.
Lemma drop_less X h : hok h -> (forall x, In x X -> (x < nxt h)%positive) -> less X (drop X h) h.
Proof. intros K B. refine (conj eq_refl (conj K (conj B (conj _ _)))); intros x Hx; apply hget_drop, Hx. Qed.

Lemma relinked_forest h F G p a o b q h1 : forest h F G -> attachable h p q -> children h p (a ++ o :: b) ->
  relinked h p (lasto a) (hd_error b) o q h1 ->
  exists l, (forall x, In x l <-> within h o x) /\ (forall x, In x l -> (x < nxt h1)%positive) /\ exists F', forest (drop l h1) F' G.
Proof.
  intros FH A Ch Rl. destruct (forest_exchanged _ _ _ _ _ _ _ _ FH A Ch) as (l & W & Lv & K). exists l. refine (conj W (conj _ _)).
  - intros x Hx. specialize (Lv x Hx). destruct (hget h x) eqn:E; [|contradiction]. destruct Rl as [-> _]. exact (f_ok _ _ _ FH _ _ E).
  - apply K. split; [exact (proj1 Rl)|]. exists h1. refine (conj Rl (conj _ _)); intros x Hx; apply hget_drop, Hx.
Qed.
Lemma children_unique h p a b : children h p a -> children h p b -> a = b.
Proof.
  intros (c & E & P & _) (c' & E' & P' & _). rewrite E in E'. injection E' as <-. eapply path_fun; eassumption.
Qed.
Lemma first_split {A} (f : A -> Prop) a o b : forall a' o' b', a ++ o :: b = a' ++ o' :: b' ->
  (forall x, In x a -> ~ f x) -> f o -> (forall x, In x a' -> ~ f x) -> f o' -> a = a' /\ o = o' /\ b = b'.
Proof.
  induction a as [|x a IH]; intros [|x' a'] o' b' E Na Fo Na' Fo'; cbn [app] in E; injection E as E1 E2.
  - auto.
  - exfalso. apply (Na' x'); [left; reflexivity|]. rewrite <- E1. exact Fo.
  - exfalso. apply (Na x); [left; reflexivity|]. rewrite E1. exact Fo'.
  - destruct (IH a' o' b' E2) as (E3 & E4 & E5); [intros y Hy; apply Na; right; exact Hy|exact Fo|intros y Hy; apply Na'; right; exact Hy|exact Fo'|].
    rewrite E1, E3. auto.
Qed.

Lemma run_forest h F G c : forest h F G -> fit h c ->
  exists l r h1, (forall x, In x l <-> gone h c x) /\ run c h = (r, h1) /\ r <> Pan /\ r <> Oof /\
    (forall x, In x l -> (x < nxt h1)%positive) /\ exists F' G', forest (drop l h1) F' G'.
Proof.
  intros FH Ft. destruct c as [o|o q|d r|d p|e pf u act]; cbn [fit gone run] in *.
  - destruct (call_forest _ _ _ _ FH Ft) as (r & h1 & C & X & Y & F' & G' & FH'). exists [], r, h1.
    refine (conj (fun x => conj (fun H => H) (fun H => H)) (conj C (conj X (conj Y (conj _ _))))); [intros x []|].
    rewrite drop_nil. eauto.
  - destruct Ft as [(p & Po & A) Ko].
    pose proof (forest_consistent _ _ _ FH) as Cs. pose proof A as ((cp & Ep) & NA & _).
    destruct (proj1 (Cs p cp Ep)) as (cs & Ch).
    { destruct (is_attr (dat cp)) eqn:D; [|reflexivity]. exfalso. apply NA. exists cp. split; [exact Ep|left; exact D]. }
    pose proof Ch as (cp' & _ & _ & _ & _ & Par). apply Par, in_split in Po as (a & b & ->).
    destruct (Replace_relinks _ _ _ _ _ _ _ _ FH A Ch Ko) as (h1 & Rn & Rl).
    destruct (relinked_forest _ _ _ _ _ _ _ _ _ FH A Ch Rl) as (l & W & B & F' & FH').
    exists l, (Ret tt), h1. refine (conj W (conj Rn (conj _ (conj _ (conj B _))))); [discriminate|discriminate|eauto].
  - destruct Ft as (A & Kd & Kr & Nd).
    pose proof (forest_consistent _ _ _ FH) as Cs. pose proof A as ((cd & Ed) & NA & Hr & NAn).
    destruct (proj1 (Cs d cd Ed)) as (cs & Ch).
    { destruct (is_attr (dat cd)) eqn:D; [|reflexivity]. exfalso. apply NA. exists cd. split; [exact Ed|left; exact D]. }
    pose proof Ch as (cp' & _ & _ & _ & _ & Par).
    assert (Dec : (forall x, In x cs -> kind h x <> Some ElementNode) \/
                  exists a o b, cs = a ++ o :: b /\ (forall x, In x a -> kind h x <> Some ElementNode) /\ kind h o = Some ElementNode).
    { clear. induction cs as [|x cs [I|(a & o & b & -> & I1 & I2)]]; [left; intros x []|..].
      - destruct (is_elem h x) eqn:K.
        + right. exists [], x, cs. refine (conj eq_refl (conj _ _)); [intros y []|apply is_elem_kind, K].
        + left. intros y [<-|Hy]; [|auto]. intro Y. apply is_elem_kind in Y. congruence.
      - destruct (is_elem h x) eqn:K.
        + right. exists [], x, (a ++ o :: b). refine (conj eq_refl (conj _ _)); [intros y []|apply is_elem_kind, K].
        + right. exists (x :: a), o, b. refine (conj eq_refl (conj _ I2)). intros y [<-|Hy]; [|auto]. intro Y. apply is_elem_kind in Y. congruence. }
    destruct Dec as [No|(a & o & b & -> & Na & Ko)].
    + destruct (SetDocumentElement_grows _ _ _ _ _ _ FH A Kd Kr Ch) as (h1 & Rn & Gr).
      { intros x Hx. split; [exact (No x Hx)|]. apply Nd, Par, Hx. }
      exists [], (Ret tt), h1. split; [|refine (conj Rn (conj _ (conj _ (conj _ _)))); [discriminate|discriminate|intros x []|]].
      * intro x. split; [intros []|]. intros (a & o & b & Ch' & _ & Ko & _). apply (No o); [|exact Ko].
        rewrite (children_unique _ _ _ _ Ch Ch'). apply in_elt.
      * rewrite drop_nil. pose proof (forest_node _ _ _ _ _ FH Ed NA) as Hd.
        destruct (two_groups _ _ _ _ _ FH Hd Hr NAn) as (ga & t & gb & tq & F' & Pm & Ht & <-).
        pose proof (forest_perm _ _ _ _ Pm FH) as FH'. do 2 eexists. eapply forest_grown; try eassumption.
        intros c Ec. rewrite Ed in Ec. injection Ec as <-. rewrite (kind_some _ _ _ Ed) in Kd. destruct (dat cd); try discriminate; reflexivity.
    + destruct (SetDocumentElement_relinks _ _ _ _ _ _ _ _ FH A Kd Ch Na Ko) as (h1 & Rn & Rl).
      destruct (relinked_forest _ _ _ _ _ _ _ _ _ FH A Ch Rl) as (l & W & B & F' & FH').
      exists l, (Ret tt), h1. split; [|refine (conj Rn (conj _ (conj _ (conj B _)))); [discriminate|discriminate|eauto]].
      intro x. rewrite W. split; [intro H; exists a, o, b; auto|]. intros (a' & o' & b' & Ch' & Na' & Ko' & H).
      destruct (first_split (fun y => kind h y = Some ElementNode) _ _ _ _ _ _ (children_unique _ _ _ _ Ch Ch') Na Ko Na' Ko') as (_ & -> & _). exact H.
  - destruct Ft as [(c & E) NA]. destruct (node_tree _ _ _ _ _ FH E NA) as (a & k & par & pv & nx & L & Ndp & _).
    pose proof (ptrs_small _ _ _ _ _ (f_ok _ _ _ FH) L Ndp) as Sz.
    destruct (tree_run d _ _ _ _ _ (2 * size h) L) as (h1 & Rn & St); [lia|]. exists [], (Ret tt), h1.
    refine (conj (fun x => conj (fun H => H) (fun H => H)) (conj Rn (conj _ (conj _ (conj _ _))))); [discriminate|discriminate|intros x []|].
    rewrite drop_nil. do 2 eexists. eapply forest_similar; [apply steady_similar, St|exact FH].
  - unfold kind, data_of in Ft. destruct (hget h e) as [c|] eqn:E; [|discriminate]. cbn in Ft. injection Ft as Ft.
    unfold SetNamespace. rewrite (bind_getc _ _ _ _ E). cbv beta.
    assert (El : exists nm ns defs props, dat c = DElem nm ns defs props) by (destruct (dat c); try discriminate; eauto).
    destruct El as (name & ns & nsdefs & props & D). rewrite D.
    assert (St : exists d', (if act then setData e (DElem name (Some (pf, u)) nsdefs props) else setData e (DElem name ns (nsdefs ++ [(pf, u)]) props)) h
                            = (Ret tt, hset h e (with_dat d' c)) /\ same_kind (dat c) d').
    { destruct act; unfold setData; rewrite (upd_run _ _ _ _ E); eexists; (split; [reflexivity|rewrite D; reflexivity]). }
    destruct St as (d' & Rn & Sk). exists [], (Ret tt). eexists.
    refine (conj (fun x => conj (fun H => H) (fun H => H)) (conj Rn (conj _ (conj _ (conj _ _))))); [discriminate|discriminate|intros x []|].
    rewrite drop_nil. exists F, G. eapply forest_similar; [|exact FH]. split; [reflexivity|]. intro x. rewrite hget_hset.
    destruct (Pos.eqb_spec x e) as [->|]; [rewrite E; cbn; auto|]. destruct (hget h x); [split; [reflexivity|apply same_kind_refl]|exact I].
Qed.

(* ---- histories ---- *)
Section Since.
Variable start : heap -> Prop.
Hypothesis Sound : forall h, start h -> sound h.
Lemma since_forest X h : since start X h -> less X (drop X h) h /\ sound (drop X h).
Proof.
  induction 1 as [h S0|X h c r h' X' L [Ls (F & G & FH)] Ft Rn EX].
  - apply Sound in S0 as (F & G & FH). split; [apply drop_less; [exact (f_ok _ _ _ FH)|intros x []]|]. exists F, G. rewrite drop_nil. exact FH.
  - destruct (run_forest _ _ _ _ FH Ft) as (l & r0 & h1 & W & R0 & NP & _ & B & F' & G' & FH').
    destruct (fr_run c X (drop X h) h Ls) as (_ & Ls' & _); [rewrite R0; exact NP|]. rewrite R0, Rn in Ls'. cbn [snd] in Ls'.
    pose proof Ls' as (N' & K' & B' & A' & E').
    assert (Bd : forall x, In x X' -> (x < nxt h')%positive).
    { intros x Hx. apply EX in Hx as [Hx|Hx]; [apply B', Hx|]. rewrite N'. apply B, W, Hx. }
    split; [apply drop_less; [exact K'|exact Bd]|]. exists F', G'. eapply forest_similar; [|exact FH'].
    split; [exact N'|]. intro x. assert (Eq : hget (drop X' h') x = hget (drop l h1) x).
    { destruct (pos_in x l) as [Hl|Hl].
      - rewrite (proj1 (hget_drop l h1 x) Hl). apply hget_drop, EX. right. apply W, Hl.
      - rewrite (proj2 (hget_drop l h1 x) Hl). destruct (pos_in x X) as [HX|HX].
        + rewrite A' by exact HX. apply hget_drop, EX. left. exact HX.
        + rewrite E' by exact HX. apply hget_drop. intro Y. apply EX in Y as [Y|Y]; [contradiction|]. apply Hl, W, Y. }
    rewrite Eq. destruct (hget (drop l h1) x); [split; [reflexivity|apply same_kind_refl]|exact I].
Qed.
Lemma since_consistent X h : since start X h -> consistent (drop X h).
Proof. intro L. destruct (since_forest _ _ L) as (_ & F & G & FH). eapply forest_consistent, FH. Qed.
(* an allowed call does not fail to end, leaves the nodes out of use alone, and
   does what it would do without them *)
Lemma since_total X h c : since start X h -> fit (drop X h) c ->
  exists r h' X', run c h = (r, h') /\ r <> Pan /\ r <> Oof /\ since start X' h' /\ (forall x, In x X -> In x X' /\ hget h' x = hget h x).
Proof.
  intros L Ft. destruct (since_forest _ _ L) as (Ls & F & G & FH).
  destruct (run_forest _ _ _ _ FH Ft) as (l & r0 & h1 & W & R0 & NP & NO & B & F' & G' & FH').
  destruct (fr_run c X (drop X h) h Ls) as (Er & _ & K); [rewrite R0; exact NP|].
  destruct (run c h) as [r h'] eqn:Rn. cbn [fst snd] in *. rewrite R0 in Er. cbn [fst] in Er. subst r0.
  exists r, h', (X ++ l). refine (conj eq_refl (conj NP (conj NO (conj _ _)))).
  - econstructor; [exact L|exact Ft|exact Rn|]. intro x. rewrite in_app_iff, W. tauto.
  - intros x Hx. split; [apply in_or_app; tauto|apply K, Hx].
Qed.
Lemma since_same X h c r0 h0 : since start X h -> fit (drop X h) c -> run c (drop X h) = (r0, h0) ->
  exists h', run c h = (r0, h') /\ forall x, ~ In x X -> hget h' x = hget h0 x.
Proof.
  intros L Ft R0. destruct (since_forest _ _ L) as (Ls & F & G & FH).
  destruct (run_forest _ _ _ _ FH Ft) as (l & r & h1 & _ & R1 & NP & _). rewrite R0 in R1. injection R1 as <- <-.
  destruct (fr_run c X (drop X h) h Ls) as (Er & (_ & _ & _ & _ & E) & _); [rewrite R0; exact NP|].
  destruct (run c h) as [r h'] eqn:Rn. cbn [fst snd] in *. rewrite R0 in Er, E. cbn [fst snd] in *. subst r.
  exists h'. split; [reflexivity|]. intros x Hx. symmetry. apply E, Hx.
Qed.
End Since.
Lemma empty_sound h : h = empty_heap -> sound h.
Proof. intros ->. exists [], []. apply forest_empty. Qed.
Definition life_forest := since_forest _ empty_sound.
Definition life_consistent := since_consistent _ empty_sound.
Definition life_total := since_total _ empty_sound.
Definition life_same := since_same _ empty_sound.
(* histories without replacement *)
Lemma reach_life h : reach h -> life [] h.
Proof.
  induction 1 as [|h o r h' R IH A C]; [constructor; reflexivity|]. apply (sinceS _ [] h (TOp o) r h'); [exact IH|rewrite drop_nil; exact A|exact C|].
  intro x. cbn. tauto.
Qed.

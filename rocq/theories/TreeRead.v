(* Walk and Content against the document order of the tree. *)
From Coq Require Import FMapPositive Permutation.
From Verif Require Import Base Utf8 Utf8Proofs Escape Scan Heap TreeShape TreeOps Forest ForestOps ForestAdd ForestAttr History TreeCalls.

(* ---- the specifications ---- *)

(* l lists p and its descendants, parents before children and siblings in order *)
Inductive preorder (h : heap) : ptr -> list ptr -> Prop :=
| pre_node p cs ls : children h p cs -> Forall2 (preorder h) cs ls -> preorder h p (p :: concat ls).
(* calling f on the nodes of a list until it answers an error *)
Fixpoint visit {W} (f : W -> ptr -> W * option herr) (l : list ptr) (w : W) : outcome herr unit * W :=
  match l with
  | [] => (Ret tt, w)
  | x :: r => match f w x with
              | (w1, Some e) => (Fail e, w1)
              | (w1, None) => visit f r w1
              end
  end.
(* the text a node holds itself *)
Definition own (h : heap) (x : ptr) : str :=
  match data_of h x with
  | Some (DText s) => s
  | Some (DComment s) => s
  | Some (DEntity _ _ _ _ s _) => s
  | _ => []
  end.

(* ---- trees and document order ---- *)
Lemma forall2_impl {A B} (P Q : A -> B -> Prop) l m : (forall x y, P x y -> Q x y) -> Forall2 P l m -> Forall2 Q l m.
Proof. intros H F. induction F; constructor; auto. Qed.
Lemma roots_nodes l : Forall2 (fun x y => exists t, In t l /\ x = root t /\ y = nodes t) (map root l) (map nodes l).
Proof.
  induction l as [|t r IH]; cbn; [constructor|]. constructor; [exists t; auto|].
  eapply forall2_impl; [|exact IH]. intros x y (u & Hu & X). exists u. split; [right; exact Hu|exact X].
Qed.

Lemma nodes_concat l : flat_map nodes l = concat (map nodes l).
Proof. apply flat_map_concat_map. Qed.

Lemma tree_preorder h F G : forest h F G -> forall t par pv nx, linked h par pv nx t -> incl (nodes t) (fnodes F) ->
  preorder h (root t) (nodes t).
Proof.
  intro FH. induction t as [p a k IH] using ltree_ind'. intros par pv nx L I.
  cbn [root nodes]. rewrite nodes_concat. apply pre_node with (cs := map root k).
  - eapply forest_children; [exact FH|apply I; left; reflexivity|exact L].
  - apply linked_eq in L as [_ K]. eapply forall2_impl; [|apply roots_nodes].
    cbn beta. intros x y (t & Ht & -> & ->). destruct (linkeds_in _ _ _ _ _ _ K Ht) as (pv' & nx' & Lt).
    rewrite Forall_forall in IH. apply (IH t Ht _ _ _ Lt). intros z Hz. apply I. right. apply in_flat_map. exists t. auto.
Qed.
Lemma preorder_tree h t : forall par pv nx l, linked h par pv nx t -> preorder h (root t) l -> l = nodes t.
Proof.
  induction t as [p a k IH] using ltree_ind'. intros par pv nx l L P. inversion P as [p' cs ls Ch F2 E1 E2]. subst p' l.
  cbn [root nodes] in *. f_equal. rewrite nodes_concat. f_equal.
  apply linked_eq in L as [(c & M1 & M2 & _) K].
  assert (Ek : cs = map root k).
  { destruct Ch as (c' & E & Pa & _). rewrite M1 in E. injection E as <-. rewrite M2 in Pa. cbn [l_first] in Pa.
    apply linkeds_path in K. exact (path_fun _ _ _ Pa _ K). }
  subst cs. clear - IH F2 K. revert IH K. generalize (@None ptr) at 1. revert ls F2.
  induction k as [|t r IHr]; intros ls F2 pv IH K; cbn [map] in *; inversion F2; subst; [reflexivity|].
  cbn [linkeds] in K. destruct K as [K1 K2]. inversion IH as [|? ? I1 I2]; subst. f_equal; [eapply I1; eassumption|].
  eapply IHr; eassumption.
Qed.

(* a tree node has its tree *)
Lemma node_tree h F G p c : forest h F G -> hget h p = Some c -> ~ in_attr h p ->
  exists a k par pv nx, linked h par pv nx (N p a k) /\ NoDup (ptrs (N p a k)) /\ incl (nodes (N p a k)) (fnodes F).
Proof.
  intros FH E NA. destruct (forest_sub _ _ _ _ FH (forest_node _ _ _ _ _ FH E NA)) as (a & k & par & pv & nx & L & Nd & I & _).
  exists a, k, par, pv, nx. auto.
Qed.
Lemma reach_preorder h p : sound h -> live h p -> ~ in_attr h p -> exists l, preorder h p l.
Proof.
  intros R (c & E) NA. pose proof R as (F & G & FH).
  destruct (node_tree _ _ _ _ _ FH E NA) as (a & k & par & pv & nx & L & _ & I). exists (nodes (N p a k)).
  exact (tree_preorder _ _ _ FH (N p a k) _ _ _ L I).
Qed.
(* no node twice *)
Lemma nodes_nodup t : NoDup (ptrs t) -> NoDup (nodes t).
Proof.
  induction t as [p a k IH] using ltree_ind'. intro H. cbn [ptrs nodes] in *. apply NoDup_cons_iff in H as [H1 H2].
  constructor.
  - intro X. apply H1, in_or_app. right. apply in_flat_map in X as (t & Ht & X). apply in_flat_map. exists t.
    split; [exact Ht|apply nodes_in_ptrs, X].
  - apply nodup_app_r in H2. clear H1. induction k as [|t r IHr]; [constructor|]. cbn [flat_map] in *.
    inversion IH as [|? ? I1 I2]; subst. specialize (IHr I2 (nodup_app_r _ _ H2)). specialize (I1 (nodup_app_l _ _ H2)).
    assert (D : forall x, In x (nodes t) -> ~ In x (flat_map nodes r)).
    { intros x Hx Hy. apply (nodup_app_disj _ _ x H2); [apply nodes_in_ptrs, Hx|].
      apply in_flat_map in Hy as (u & Hu & Hy). apply in_flat_map. exists u. split; [exact Hu|apply nodes_in_ptrs, Hy]. }
    clear - I1 IHr D. induction (nodes t) as [|x l IH]; [exact IHr|]. cbn. apply NoDup_cons_iff in I1 as [N1 N2]. constructor.
    + intro X. apply in_app_or in X as [X|X]; [contradiction|]. apply (D x); [left; reflexivity|exact X].
    + apply IH; [exact N2|]. intros y Hy. apply D. right. exact Hy.
Qed.
(* exactly the descendants *)
Lemma descends h F G t par pv nx x : forest h F G -> linked h par pv nx t -> incl (nodes t) (fnodes F) ->
  ancestor h (root t) x -> In x (nodes t).
Proof.
  intros FH L I A. induction A as [|x c r E P A IH]; [destruct t; left; reflexivity|].
  destruct (find_sub _ _ _ _ _ _ L IH) as (a & k & par' & pv' & nx' & Ls & _ & Is).
  pose proof (forest_children _ _ _ _ _ _ _ _ _ FH (I _ IH) Ls) as Ch.
  pose proof (children_parent _ _ _ _ _ Ch E P) as Hx. apply Is. cbn [nodes]. right.
  apply in_map_iff in Hx as (u & <- & Hu). apply in_flat_map. exists u. split; [exact Hu|]. destruct u; left; reflexivity.
Qed.
Lemma preorder_exact h p l : sound h -> live h p -> ~ in_attr h p -> preorder h p l ->
  NoDup l /\ forall x, In x l <-> ancestor h p x.
Proof.
  intros R (c & E) NA P. pose proof R as (F & G & FH).
  destruct (node_tree _ _ _ _ _ FH E NA) as (a & k & par & pv & nx & L & Nd & I).
  rewrite (preorder_tree h (N p a k) _ _ _ l L P). split; [apply nodes_nodup, Nd|]. intro x. split.
  - intro Hx. exact (nodes_ancestor _ _ _ _ _ _ L Hx).
  - intro A. exact (descends _ _ _ _ _ _ _ _ FH L I A).
Qed.

(* ---- Walk ---- *)
Section WalkProofs.
Context {W : Type}.
Variable f : W -> ptr -> W * option herr.
Lemma visit_app a : forall b w, visit f (a ++ b) w =
  match visit f a w with (Ret _, w1) => visit f b w1 | r => r end.
Proof.
  induction a as [|x a IH]; intros b w; [reflexivity|]. cbn [app visit]. destruct (f w x) as [w1 [e|]]; [reflexivity|apply IH].
Qed.
Lemma visit_no_pan a : forall w, fst (visit f a w) <> Pan /\ fst (visit f a w) <> Oof.
Proof.
  induction a as [|x a IH]; intro w; cbn [visit]; [split; discriminate|].
  destruct (f w x) as [w1 [e|]]; [split; discriminate|apply IH].
Qed.
Lemma walks_linked h par l :
  (forall t, In t l -> forall pv nx, linked h par pv nx t -> forall n w, (2 * List.length (nodes t) <= S n)%nat ->
     walk h f n (root t) w = visit f (nodes t) w) ->
  forall pv n w, linkeds h par pv None l -> (2 * List.length (flat_map nodes l) <= n)%nat ->
  walks h f n (hd_error (map root l)) w = visit f (flat_map nodes l) w.
Proof.
  intro IH. induction l as [|t r IHr]; intros pv n w L B.
  - destruct n; reflexivity.
  - cbn [linkeds] in L. destruct L as [L1 L2]. cbn [flat_map] in B |- *. rewrite app_length in B.
    assert (1 <= List.length (nodes t))%nat by (destruct t; cbn; lia).
    destruct n as [|n]; [lia|]. cbn [map hd_error walks].
    rewrite (IH t (or_introl eq_refl) _ _ L1) by lia. rewrite visit_app.
    destruct (visit f (nodes t) w) as [o w1] eqn:Ev. destruct o as [u|e| |]; try reflexivity.
    destruct t as [p a k]. apply linked_eq in L1 as [(c & M1 & M2 & _) _]. cbn [root]. rewrite M1, M2. cbn [l_next].
    rewrite hdo_none. eapply IHr; [|exact L2|lia]. intros t Ht. apply IH. right. exact Ht.
Qed.
Lemma walk_linked h t : forall par pv nx, linked h par pv nx t -> forall n w, (2 * List.length (nodes t) <= S n)%nat ->
  walk h f n (root t) w = visit f (nodes t) w.
Proof.
  induction t as [p a k IH] using ltree_ind'. intros par pv nx L n w B. cbn [nodes List.length] in B.
  destruct n as [|n]; [lia|]. cbn [root nodes walk visit]. destruct (f w p) as [w1 [e|]]; [reflexivity|].
  apply linked_eq in L as [(c & M1 & M2 & _) K]. rewrite M1, M2. cbn [l_first].
  eapply walks_linked; [|exact K|lia]. rewrite Forall_forall in IH. intros t Ht pv' nx' Lt. eapply IH; eassumption.
Qed.
End WalkProofs.

Lemma Walk_visits {W} (f : W -> ptr -> W * option herr) h p l n w :
  sound h -> live h p -> ~ in_attr h p -> preorder h p l -> (2 * List.length l <= n)%nat ->
  Walk h f n (Some p) w = visit f l w.
Proof.
  intros R (c & E) NA P B. pose proof R as (F & G & FH).
  destruct (node_tree _ _ _ _ _ FH E NA) as (a & k & par & pv & nx & L & _).
  rewrite (preorder_tree h (N p a k) _ _ _ l L P) in *. cbn [Walk].
  apply (walk_linked f h (N p a k) _ _ _ L). lia.
Qed.

(* ---- Content ---- *)

(* entities without children, in the tree *)
Definition ent_leaf (h : heap) (t : ltree) : Prop :=
  forall y a k, sub t (N y a k) -> kind h y = Some EntityNode -> k = [].

Lemma contents_linked h par l :
  (forall t, In t l -> forall pv nx, linked h par pv nx t -> forall n, (2 * List.length (nodes t) <= S n)%nat ->
     content h n (root t) = Ret (flat_map (own h) (nodes t))) ->
  forall pv n, linkeds h par pv None l -> (2 * List.length (flat_map nodes l) <= n)%nat ->
  contents h n (hd_error (map root l)) = Ret (flat_map (own h) (flat_map nodes l)).
Proof.
  intro IH. induction l as [|t r IHr]; intros pv n L B.
  - destruct n; reflexivity.
  - cbn [linkeds] in L. destruct L as [L1 L2]. cbn [flat_map] in B |- *. rewrite app_length in B.
    assert (1 <= List.length (nodes t))%nat by (destruct t; cbn; lia).
    destruct n as [|n]; [lia|]. cbn [map hd_error contents].
    rewrite (IH t (or_introl eq_refl) _ _ L1) by lia.
    destruct t as [p a k]. apply linked_eq in L1 as [(c & M1 & M2 & _) _]. cbn [root]. rewrite M1, M2. cbn [l_next obind].
    rewrite hdo_none. erewrite IHr; [|intros t Ht; apply IH; right; exact Ht|exact L2|lia].
    cbn [obind]. rewrite flat_map_app. reflexivity.
Qed.
Lemma content_linked h t : forall par pv nx, linked h par pv nx t -> ent_leaf h t ->
  forall n, (2 * List.length (nodes t) <= S n)%nat -> content h n (root t) = Ret (flat_map (own h) (nodes t)).
Proof.
  induction t as [p a k IH] using ltree_ind'. intros par pv nx L El n B. cbn [nodes List.length] in B.
  destruct n as [|n]; [lia|]. cbn [root nodes content flat_map].
  apply linked_eq in L as [(c & M1 & M2 & M3) K]. rewrite M1.
  assert (Ks : contents h n (l_first (lk c)) = Ret (flat_map (own h) (flat_map nodes k))).
  { rewrite M2. cbn [l_first]. eapply contents_linked; [|exact K|lia]. rewrite Forall_forall in IH.
    intros t Ht pv' nx' Lt. eapply IH; [exact Ht|exact Lt|]. intros y a' k' S. apply El with a'. econstructor; eassumption. }
  unfold own at 1, data_of. rewrite M1. cbn [option_map].
  destruct (dat c) eqn:Ed; cbn [app]; try exact Ks; cbn [props_ok] in M3.
  - destruct M3 as [_ ->]. rewrite app_nil_r. reflexivity.
  - destruct M3 as [_ ->]. rewrite app_nil_r. reflexivity.
  - rewrite (El p a k (sub_here _)); [cbn; rewrite app_nil_r; reflexivity|]. rewrite (kind_some _ _ _ M1), Ed. reflexivity.
Qed.

(* the same at the level of the calls *)
Definition plain_entities (h : heap) (l : list ptr) : Prop :=
  forall x, In x l -> kind h x = Some EntityNode -> children h x [].
Lemma plain_ent_leaf h t par pv nx : linked h par pv nx t -> plain_entities h (nodes t) -> ent_leaf h t.
Proof.
  intros L P y a k S K. assert (Hy : In y (nodes t)) by (apply (sub_nodes _ _ S); left; reflexivity).
  destruct (linked_sub _ _ _ S _ _ _ L) as (par' & pv' & nx' & Ls). destruct (P y Hy K) as (c & E & Pa & _).
  apply linked_eq in Ls as [(c' & M1 & M2 & _) _]. rewrite E in M1. injection M1 as <-. rewrite M2 in Pa. cbn [l_first] in Pa.
  destruct k; [reflexivity|inversion Pa].
Qed.
Lemma Content_concat h p l n :
  sound h -> live h p -> ~ in_attr h p -> preorder h p l -> plain_entities h l -> (2 * List.length l <= n)%nat ->
  Content n p h = (Ret (concat (map (own h) l)), h).
Proof.
  intros R (c & E) NA P Pe B. pose proof R as (F & G & FH).
  destruct (node_tree _ _ _ _ _ FH E NA) as (a & k & par & pv & nx & L & _).
  rewrite (preorder_tree h (N p a k) _ _ _ l L P) in *. unfold Content. rewrite <- flat_map_concat_map. f_equal.
  apply (content_linked h (N p a k) _ _ _ L); [eapply plain_ent_leaf; eassumption|lia].
Qed.

(* AddContent: the content grows by the bytes *)
Lemma flat_own h h' l : (forall x, In x l -> data_of h' x = data_of h x) -> flat_map (own h') l = flat_map (own h) l.
Proof.
  intro H. induction l as [|x r IH]; [reflexivity|]. cbn [flat_map]. unfold own at 1 3. rewrite H by (left; reflexivity).
  f_equal. apply IH. intros y Hy. apply H. right. exact Hy.
Qed.
Lemma linked_live h t par pv nx x : linked h par pv nx t -> In x (nodes t) -> exists c, hget h x = Some c.
Proof.
  intros L H. destruct (find_sub _ _ _ _ _ _ L H) as (a & k & par' & pv' & nx' & Ls & _).
  apply linked_eq in Ls as [(c & E & _) _]. eauto.
Qed.
Lemma ent_leaf_data h h' t : (forall x, In x (nodes t) -> kind h' x = kind h x) -> ent_leaf h t -> ent_leaf h' t.
Proof.
  intros K E y a k S Ky. apply (E y a k S). rewrite <- K; [exact Ky|]. apply (sub_nodes _ _ S). left. reflexivity.
Qed.

Lemma AddContent_extends h p l b h' n :
  sound h -> live h p -> ~ in_attr h p -> preorder h p l -> plain_entities h l -> kind h p <> Some EntityNode ->
  AddContent p b h = (Ret tt, h') -> (2 * List.length l + 2 <= n)%nat ->
  exists s, Content n p h = (Ret s, h) /\ Content n p h' = (Ret (s ++ b), h').
Proof.
  intros R Hl NA P Pe Kp Rn B. exists (concat (map (own h) l)). split; [apply Content_concat; try assumption; lia|].
  pose proof R as (F & G & FH). pose proof Hl as (c & E).
  destruct (node_tree _ _ _ _ _ FH E NA) as (a & k & par & pv & nx & L & Nd & I).
  rewrite (preorder_tree h (N p a k) _ _ _ l L P) in *. rewrite <- flat_map_concat_map. unfold Content. f_equal.
  pose proof (plain_ent_leaf _ _ _ _ _ L Pe) as El. clear P Pe l.
  pose proof (f_ok _ _ _ FH) as Hk.
  destruct (AddContent_forest _ _ _ _ b FH Hl NA) as (r & h2 & R2 & Ef & _). rewrite Rn in R2. assert (h2 = h') by congruence. assert (Er0 : r = Ret tt) by congruence. clear R2. subst h2.
  destruct Ef as [cp s h' E1 D1 Rd|cp s h' E1 D1 Rd|cp r h' E1 Nk Ce].
  - (* text *)
    rewrite E in E1. injection E1 as <-. apply linked_eq in L as [(c' & M1 & M2 & M3) _]. rewrite E in M1. injection M1 as <-.
    rewrite D1 in M3. destruct M3 as [_ ->]. destruct Rd as [_ Rd]. destruct n as [|n]; [lia|]. cbn [content].
    rewrite Rd, Pos.eqb_refl, E. cbn [option_map with_dat dat nodes flat_map]. unfold own, data_of. rewrite E. cbn [option_map].
    rewrite D1, app_nil_r. reflexivity.
  - rewrite E in E1. injection E1 as <-. apply linked_eq in L as [(c' & M1 & M2 & M3) _]. rewrite E in M1. injection M1 as <-.
    rewrite D1 in M3. destruct M3 as [_ ->]. destruct Rd as [_ Rd]. destruct n as [|n]; [lia|]. cbn [content].
    rewrite Rd, Pos.eqb_refl, E. cbn [option_map with_dat dat nodes flat_map]. unfold own, data_of. rewrite E. cbn [option_map].
    rewrite D1, app_nil_r. reflexivity.
  - (* a new text node *)
    rewrite E in E1. injection E1 as <-.
    set (q := nxt h) in *. set (h1 := with_new h _) in *.
    assert (Old : forall x cx, hget h x = Some cx -> hget h1 x = Some cx).
    { intros x cx Ex. unfold h1. rewrite hget_new. destruct (Pos.eqb_spec x (nxt h)) as [->|]; [|exact Ex].
      rewrite (hok_free _ Hk) in Ex. discriminate. }
    assert (Eq1 : hget h1 q = Some {| lk := nolinks; owner := None; dat := DText b |}).
    { unfold h1. rewrite hget_new. unfold q. rewrite Pos.eqb_refl. reflexivity. }
    assert (Tlive : forall x, In x (ptrs (N p a k)) -> exists cx, hget h x = Some cx).
    { intros x Hx. destruct (ptrs_cases _ _ _ _ _ _ L Hx) as [X|(p1 & pr & nm & ns & df & a1 & c1 & _ & _ & X3 & X4)].
      - exact (linked_live _ _ _ _ _ _ L X).
      - destruct (achain_in _ _ _ _ X3 X4) as (cx & Ex & _). eauto. }
    assert (Hq : ~ In q (ptrs (N p a k))).
    { intro X. destruct (Tlive q X) as (cx & Ex). unfold q in Ex. rewrite (hok_free _ Hk) in Ex. discriminate. }
    assert (L1 : linked h1 par pv nx (N p a k)).
    { eapply linked_frame; [exact L|]. intros x Hx. destruct (Tlive x Hx) as (cx & Ex). rewrite Ex. apply Old, Ex. }
    assert (Own1 : forall x, In x (nodes (N p a k)) -> data_of h1 x = data_of h x).
    { intros x Hx. destruct (linked_live _ _ _ _ _ _ L Hx) as (cx & Ex). unfold data_of. rewrite Ex, (Old _ _ Ex). reflexivity. }
    assert (El1 : ent_leaf h1 (N p a k)).
    { eapply ent_leaf_data; [|exact El]. intros x Hx. unfold kind. rewrite (Own1 x Hx). reflexivity. }
    rewrite <- (flat_own h h1 _ Own1).
    assert (Ep1 : hget h1 p = Some c) by (apply Old, E).
    inversion Ce as [c1 c2 s t h3 E1 E2 D1 D2 Rd Er Eh|c1 c2 s t h3 E1 E2 D1 D2 Rd Er Eh|c1 c2 e E1 E2 D1 D2 Er Eh|c1 c2 cl l s t h3 E1 D0 Ll E3 E2 D1 D2 Rd Er Eh|c1 cl l e E1 D0 Ll E3 D1 Er Eh|c1 c2 h3 E1 E2 D0 NT Gr Er Eh]; subst;
      rewrite Ep1 in E1; injection E1 as <-; try discriminate; try (rewrite D1 in Nk; discriminate).
    + (* joined to the last text *)
      rewrite Eq1 in E2. injection E2 as <-. cbn [dat] in D2. injection D2 as <-.
      pose proof L1 as L1'. apply linked_eq in L1' as [(c' & M1 & M2 & M3) K]. rewrite Ep1 in M1. injection M1 as <-.
      rewrite M2 in Ll. cbn [l_last] in Ll. destruct (snoc_cases k) as [->|(k1 & tl & ->)]; [discriminate|].
      rewrite map_app in Ll. cbn [map] in Ll. rewrite lasto_snoc in Ll. injection Ll as <-.
      apply linkeds_app in K as [K1 [K2 _]]. destruct tl as [l al kl]. cbn [root] in *.
      apply linked_eq in K2 as [(cl' & N1 & N2 & N3) _]. rewrite E3 in N1. injection N1 as <-. rewrite D1 in N3. destruct N3 as [-> ->].
      assert (Sim : similar h1 h').
      { eapply similar_redata; [exact E3| |exact Rd]. rewrite D1. exact Logic.I. }
      pose proof (linked_similar _ _ Sim _ _ _ _ L1) as L2.
      destruct Rd as [_ Rd].
      assert (Nl : ~ In l (p :: flat_map nodes k1)).
      { pose proof (nodes_nodup _ Nd) as N'. cbn [nodes] in N'. rewrite flat_map_app in N'. cbn [flat_map nodes] in N'.
        intro X. change (NoDup ((p :: flat_map nodes k1) ++ [l])) in N'. apply (nodup_app_disj _ _ l N' X). left. reflexivity. }
      assert (Dat : forall x, In x (p :: flat_map nodes k1) -> data_of h' x = data_of h1 x).
      { intros x Hx. unfold data_of. rewrite Rd. destruct (Pos.eqb_spec x l) as [->|]; [contradiction|reflexivity]. }
      assert (El2 : ent_leaf h' (N p a (k1 ++ [N l [] []]))).
      { eapply ent_leaf_data; [|exact El1]. intros x Hx. unfold kind, data_of. rewrite Rd. destruct (Pos.eqb_spec x l) as [->|]; [|reflexivity].
        rewrite E3. cbn. rewrite D1. reflexivity. }
      rewrite (content_linked _ _ _ _ _ L2 El2) by (cbn [nodes List.length] in *; lia).
      assert (En : nodes (N p a (k1 ++ [N l [] []])) = (p :: flat_map nodes k1) ++ [l]).
      { cbn [nodes]. rewrite flat_map_app. reflexivity. }
      rewrite En.
      rewrite !flat_map_app, (flat_own h1 h' _ Dat). rewrite <- app_assoc. do 2 f_equal. cbn [flat_map]. rewrite !app_nil_r.
      unfold own, data_of. rewrite Rd, Pos.eqb_refl, E3. cbn. rewrite D1. reflexivity.
    + (* a new last child *)
      rewrite Eq1 in E2. injection E2 as <-.
      assert (Lq : linked h1 None None None (N q [] [])).
      { apply linked_eq. split; [|exact Logic.I]. eexists. split; [exact Eq1|]. cbn. auto. }
      assert (L2 : linked h' par pv nx (addk p (N q [] []) (N p a k))).
      { apply linked_addk with (h := h1); try assumption.
        - cbn [ptrs attptrs flat_map app]. change (p :: (attptrs a ++ flat_map ptrs k) ++ [q]) with (ptrs (N p a k) ++ [q]).
          clear - Nd Hq. revert Nd Hq. generalize (ptrs (N p a k)). intros l Nd Hq. induction l as [|x l IH]; cbn; [repeat constructor; intros []|].
          apply NoDup_cons_iff in Nd as [N1 N2]. constructor; [|apply IH; [exact N2|intro; apply Hq; right; assumption]].
          intro X. apply in_app_or in X as [X|[<-|[]]]; [contradiction|]. apply Hq. left. reflexivity.
        - left. reflexivity.
        - intros cx Ex. rewrite Ep1 in Ex. injection Ex as <-. exact Nk. }
      cbn [addk] in L2. rewrite Pos.eqb_refl in L2.
      assert (Dat : forall x cx, hget h1 x = Some cx -> data_of h' x = data_of h1 x).
      { intros x cx Ex. destruct (grown_dat _ _ _ _ _ _ Gr Ex) as (cx' & Ex' & Dx' & _). unfold data_of. rewrite Ex, Ex'. cbn. congruence. }
      assert (El2 : ent_leaf h' (N p a (k ++ [N q [] []]))).
      { intros y a' k' S Ky. inversion S as [t Et|p' a2 k2 t s Ht S' Et Es]; subst.
        - exfalso. unfold kind in Ky. rewrite (Dat _ _ Ep1) in Ky. apply Kp. unfold kind, data_of in *. rewrite E. rewrite Ep1 in Ky. exact Ky.
        - apply in_app_or in Ht as [Ht|[<-|[]]].
          + apply (El1 y a' k'); [econstructor; eassumption|].
            assert (Hy : In y (nodes (N p a k))).
            { cbn [nodes]. right. apply in_flat_map. exists t. split; [exact Ht|]. apply (sub_nodes _ _ S'). left. reflexivity. }
            destruct (linked_live _ _ _ _ _ _ L1 Hy) as (cy & Ey). unfold kind in *. rewrite <- (Dat _ _ Ey). exact Ky.
          + inversion S'; subst; [reflexivity|]. match goal with X : In _ [] |- _ => destruct X end. }
      rewrite (content_linked _ _ _ _ _ L2 El2).
      2:{ cbn [nodes List.length] in *. rewrite flat_map_app, app_length. cbn [flat_map nodes app List.length]. lia. }
      assert (En : nodes (N p a (k ++ [N q [] []])) = (p :: flat_map nodes k) ++ [q]).
      { cbn [nodes]. rewrite flat_map_app. reflexivity. }
      rewrite En.
      rewrite flat_map_app. f_equal. f_equal.
      * apply flat_own. intros x Hx. destruct (linked_live _ _ _ _ _ _ L1 Hx) as (cx & Ex). exact (Dat _ _ Ex).
      * cbn [flat_map]. rewrite app_nil_r. unfold own. rewrite (Dat _ _ Eq1). unfold data_of. rewrite Eq1. reflexivity.
Qed.

(* Vocabulary for the statements about the tree: what it means for a piece of
   the heap to be a tree.  Nothing here models code of /repo. *)
From Coq Require Import FMapPositive.
From Verif Require Import Base Utf8 Escape Scan Heap.

(* ---- what the pointers say ---- *)

(* the nodes met from o following NextSibling, to the end *)
Inductive path (h : heap) : option ptr -> list ptr -> Prop :=
| path_nil : path h None []
| path_cons p c l : hget h p = Some c -> path h (l_next (lk c)) l -> path h (Some p) (p :: l).
(* the same following PrevSibling *)
Inductive rpath (h : heap) : option ptr -> list ptr -> Prop :=
| rpath_nil : rpath h None []
| rpath_cons p c l : hget h p = Some c -> rpath h (l_prev (lk c)) l -> rpath h (Some p) (p :: l).
(* q is p or an ancestor of p: following Parent from p leads to q *)
Inductive ancestor (h : heap) (q : ptr) : ptr -> Prop :=
| anc_here : ancestor h q q
| anc_up p c r : hget h p = Some c -> l_par (lk c) = Some r -> ancestor h q r -> ancestor h q p.
(* following Parent from p ends *)
Inductive grounded (h : heap) : ptr -> Prop :=
| gr_top p c : hget h p = Some c -> l_par (lk c) = None -> grounded h p
| gr_up p c q : hget h p = Some c -> l_par (lk c) = Some q -> grounded h q -> grounded h p.

Definition parent_of (h : heap) (x : ptr) : option ptr :=
  match hget h x with Some c => l_par (lk c) | None => None end.

(* The children of p by all four kinds of links at once: forwards from
   FirstChild, backwards from LastChild, and by Parent *)
Definition children (h : heap) (p : ptr) (cs : list ptr) : Prop :=
  exists c, hget h p = Some c /\
    path h (l_first (lk c)) cs /\ rpath h (l_last (lk c)) (rev cs) /\
    NoDup cs /\ (forall x, In x cs <-> parent_of h x = Some p).
Definition is_attr (d : data) : bool := match d with DAttr _ _ => true | _ => false end.
(* every node that is not an attribute has such a list of children, and none
   is its own ancestor *)
Definition consistent (h : heap) : Prop :=
  forall p c, hget h p = Some c ->
    (is_attr (dat c) = false -> exists cs, children h p cs) /\ grounded h p.

(* ---- trees of pointers ---- *)

(* A node with its attributes (each with the nodes of its value) and children *)
Inductive ltree := N (p : ptr) (atts : list (ptr * list ptr)) (kids : list ltree).
Definition root (t : ltree) : ptr := match t with N p _ _ => p end.
Definition atts_of (t : ltree) := match t with N _ a _ => a end.
Definition kids_of (t : ltree) := match t with N _ _ k => k end.
Definition attptrs (a : list (ptr * list ptr)) : list ptr := flat_map (fun x => fst x :: snd x) a.
Fixpoint ptrs (t : ltree) : list ptr :=
  match t with N p a k => p :: attptrs a ++ flat_map ptrs k end.
(* the tree nodes proper, without the attributes, in document order *)
Fixpoint nodes (t : ltree) : list ptr :=
  match t with N p _ k => p :: flat_map nodes k end.

Fixpoint lasto (l : list ptr) : option ptr :=
  match l with [] => None | [x] => Some x | _ :: r => lasto r end.

Section ltree_ind.
Variable Q : ltree -> Prop.
Hypothesis HQ : forall p a k, Forall Q k -> Q (N p a k).
Fixpoint ltree_ind' (t : ltree) : Q t :=
  match t with
  | N p a k => HQ p a k ((fix go (l : list ltree) : Forall Q l :=
                            match l with
                            | [] => Forall_nil Q
                            | x :: r => Forall_cons x (ltree_ind' x) (go r)
                            end) k)
  end.
End ltree_ind.

(* the nodes of an attribute's value: a chain of text nodes (entity references
   that point into a DTD are left out) *)
Fixpoint vchain (h : heap) (a : ptr) (prev : option ptr) (ks : list ptr) : Prop :=
  match ks with
  | [] => True
  | k :: r => (exists c, hget h k = Some c /\ lk c = Lk None None (Some a) (hd_error r) prev /\
                         (exists s, dat c = DText s)) /\
              vchain h a (Some k) r
  end.
(* the attributes of an element; an attribute has no parent and no last child *)
Fixpoint achain (h : heap) (prev : option ptr) (l : list (ptr * list ptr)) : Prop :=
  match l with
  | [] => True
  | (a, ks) :: r =>
      (exists c, hget h a = Some c /\ lk c = Lk (hd_error ks) None None (hd_error (map fst r)) prev /\
                 (exists nm df, dat c = DAttr nm df)) /\
      vchain h a None ks /\ achain h (Some a) r
  end.

Definition props_ok (h : heap) (d : data) (atts : list (ptr * list ptr)) (kids : list ltree) : Prop :=
  match d with
  | DElem _ _ _ props => props = hd_error (map fst atts) /\ achain h None atts
  | DText _ | DComment _ => atts = [] /\ kids = []
  | DAttr _ _ => False
  | _ => atts = []
  end.

Definition node_ok (h : heap) (par prev next : option ptr) (t : ltree) : Prop :=
  match t with
  | N p atts kids =>
      exists c, hget h p = Some c /\
                lk c = Lk (hd_error (map root kids)) (lasto (map root kids)) par next prev /\
                props_ok h (dat c) atts kids
  end.
(* the first of l, or o when there is none *)
Definition hdo (l : list ptr) (o : option ptr) : option ptr := match l with [] => o | x :: _ => Some x end.
(* the last of l, or o when there is none *)
Definition lsto (l : list ptr) (o : option ptr) : option ptr := match lasto l with None => o | Some x => Some x end.
(* t is a tree of the heap whose root has the given parent and siblings *)
Fixpoint linked (h : heap) (par prev next : option ptr) (t : ltree) {struct t} : Prop :=
  node_ok h par prev next t /\
  match t with
  | N p _ kids =>
      (fix go (prev : option ptr) (l : list ltree) {struct l} : Prop :=
         match l with
         | [] => True
         | x :: r => linked h (Some p) prev (hdo (map root r) None) x /\ go (Some (root x)) r
         end) None kids
  end.
(* a list of neighbours: prev stands before it and next after it *)
Fixpoint linkeds (h : heap) (par prev next : option ptr) (l : list ltree) {struct l} : Prop :=
  match l with
  | [] => True
  | x :: r => linked h par prev (hdo (map root r) next) x /\ linkeds h par (Some (root x)) next r
  end.

Lemma linked_eq h par prev next p a k :
  linked h par prev next (N p a k) <-> node_ok h par prev next (N p a k) /\ linkeds h (Some p) None None k.
Proof.
  cbn [linked].
  match goal with |- _ /\ ?F None k <-> _ => assert (G : forall pv, F pv k <-> linkeds h (Some p) pv None k) end.
  { induction k as [|x r IH]; intro pv; cbn [linkeds]; [tauto|]. rewrite IH. tauto. }
  rewrite G. tauto.
Qed.

(* ---- heaps ---- *)
Lemma hget_hset h p c q : hget (hset h p c) q = if Pos.eqb q p then Some c else hget h q.
Proof.
  unfold hget, hset. cbn [cells]. destruct (Pos.eqb_spec q p) as [->|Hne].
  - apply PositiveMap.gss.
  - apply PositiveMap.gso. congruence.
Qed.
Lemma hget_hset_same h p c : hget (hset h p c) p = Some c.
Proof. rewrite hget_hset, Pos.eqb_refl. reflexivity. Qed.
Lemma hget_hset_other h p c q : q <> p -> hget (hset h p c) q = hget h q.
Proof. intro H. rewrite hget_hset. destruct (Pos.eqb_spec q p); [contradiction|reflexivity]. Qed.

(* every cell is below the next free pointer *)
Definition hok (h : heap) : Prop := forall p c, hget h p = Some c -> (p < nxt h)%positive.
Lemma hok_empty : hok empty_heap.
Proof. intros p c H. unfold hget in H. cbn in H. rewrite PositiveMap.gempty in H. discriminate. Qed.
Lemma hok_hset h p c : hok h -> hget h p <> None -> hok (hset h p c).
Proof.
  intros A B q d. rewrite hget_hset. destruct (Pos.eqb_spec q p) as [->|Hne]; intro E; [|apply A in E; exact E].
  cbn [nxt hset]. destruct (hget h p) as [c0|] eqn:E0; [apply (A p c0 E0)|contradiction].
Qed.
Lemma hok_free h : hok h -> hget h (nxt h) = None.
Proof. intro A. destruct (hget h (nxt h)) as [c|] eqn:E; [apply A in E; lia|reflexivity]. Qed.
Lemma nxt_hset h p c : nxt (hset h p c) = nxt h.
Proof. reflexivity. Qed.

(* two heaps that agree on some pointers *)
Definition agree (h h' : heap) (l : list ptr) : Prop := forall x, In x l -> hget h' x = hget h x.
Lemma agree_refl h l : agree h h l. Proof. intros x _. reflexivity. Qed.
Lemma agree_trans h1 h2 h3 l : agree h1 h2 l -> agree h2 h3 l -> agree h1 h3 l.
Proof. intros A B x Hx. rewrite (B x Hx). apply A, Hx. Qed.
Lemma agree_incl h h' l l' : agree h h' l -> incl l' l -> agree h h' l'.
Proof. intros A B x Hx. apply A, B, Hx. Qed.
Lemma agree_app h h' l l' : agree h h' (l ++ l') <-> agree h h' l /\ agree h h' l'.
Proof.
  split.
  - intro A. split; intros x Hx; apply A, in_or_app; tauto.
  - intros [A B] x Hx. apply in_app_or in Hx as [Hx|Hx]; auto.
Qed.
Lemma agree_cons h h' p l : agree h h' (p :: l) <-> hget h' p = hget h p /\ agree h h' l.
Proof.
  split.
  - intro A. split; [apply A; left; reflexivity|]. intros x Hx. apply A. right. exact Hx.
  - intros [A B] x [<-|Hx]; auto.
Qed.

Lemma vchain_frame h h' a prev ks : vchain h a prev ks -> agree h h' ks -> vchain h' a prev ks.
Proof.
  revert prev; induction ks as [|k r IH]; intros prev V A; cbn [vchain] in *; [exact I|].
  apply agree_cons in A as [A1 A2]. destruct V as [(c & V1 & V2) V3].
  split; [exists c; rewrite A1; auto|]. apply IH; assumption.
Qed.
Lemma achain_frame h h' prev l : achain h prev l -> agree h h' (attptrs l) -> achain h' prev l.
Proof.
  revert prev; induction l as [|[a ks] r IH]; intros prev V A; cbn [achain] in *; [exact I|].
  unfold attptrs in A. cbn [flat_map fst snd app] in A. apply agree_cons in A as [A1 A2].
  apply agree_app in A2 as [A2 A3]. destruct V as ((c & V1 & V2) & V3 & V4).
  split; [exists c; rewrite A1; auto|]. split; [eapply vchain_frame; eassumption|]. apply IH; assumption.
Qed.
Lemma props_frame h h' d atts kids :
  props_ok h d atts kids -> agree h h' (attptrs atts) -> props_ok h' d atts kids.
Proof.
  intros P A. destruct d; cbn [props_ok] in *; try exact P.
  destruct P as [P1 P2]. split; [exact P1|]. eapply achain_frame; eassumption.
Qed.
Lemma linkeds_map h h' par par' l :
  (forall t, In t l -> forall prev next, linked h par prev next t -> linked h' par' prev next t) ->
  forall prev next, linkeds h par prev next l -> linkeds h' par' prev next l.
Proof.
  induction l as [|x r IH]; intros F prev next L; cbn [linkeds] in *; [exact I|].
  split; [apply F; [left; reflexivity|exact (proj1 L)]|]. apply IH; [|exact (proj2 L)].
  intros t Ht. apply F. right. exact Ht.
Qed.
Lemma linkeds_in h par prev next l t :
  linkeds h par prev next l -> In t l -> exists pv nx, linked h par pv nx t.
Proof.
  revert prev; induction l as [|x r IH]; intros prev L H; [destruct H|]. cbn [linkeds] in L. destruct H as [<-|H].
  - exists prev. eexists. exact (proj1 L).
  - eapply IH; [exact (proj2 L)|exact H].
Qed.
Lemma agree_in h h' l t : agree h h' (flat_map ptrs l) -> In t l -> agree h h' (ptrs t).
Proof. intros A B. eapply agree_incl; [exact A|]. intros x Hx. apply in_flat_map. exists t. auto. Qed.
Lemma linked_frame h h' t : forall par prev next,
  linked h par prev next t -> agree h h' (ptrs t) -> linked h' par prev next t.
Proof.
  induction t as [p a k IH] using ltree_ind'. intros par prev next L A.
  apply linked_eq in L as [(c & L1 & L2 & L3) L4].
  cbn [ptrs] in A. apply agree_cons in A as [A1 A2]. apply agree_app in A2 as [A2 A3].
  apply linked_eq. split.
  - exists c. rewrite A1. refine (conj L1 (conj L2 _)). eapply props_frame; eassumption.
  - revert L4. apply linkeds_map. intros t Ht pv nx Lt. rewrite Forall_forall in IH.
    apply (IH t Ht); [exact Lt|]. eapply agree_in; eassumption.
Qed.
Lemma linkeds_frame h h' par prev next l :
  linkeds h par prev next l -> agree h h' (flat_map ptrs l) -> linkeds h' par prev next l.
Proof.
  revert prev; induction l as [|x r IH]; intros prev L A; cbn [linkeds flat_map] in *; [exact I|].
  apply agree_app in A as [A B]. destruct L as [L1 L2]. split; [eapply linked_frame; eassumption|apply IH; assumption].
Qed.

Lemma lasto_snoc l x : lasto (l ++ [x]) = Some x.
Proof.
  induction l as [|y r IH]; [reflexivity|]. cbn [app]. destruct r as [|z r']; [reflexivity|].
  change (lasto ((z :: r') ++ [x]) = Some x). exact IH.
Qed.
Lemma lasto_none l : lasto l = None <-> l = [].
Proof.
  split; [|intros ->; reflexivity]. induction l as [|x r IH]; [reflexivity|].
  destruct r as [|y r']; [discriminate|]. intro H. specialize (IH H). discriminate.
Qed.
Lemma snoc_cases {A} (l : list A) : l = [] \/ exists a x, l = a ++ [x].
Proof. destruct l as [|y r]; [left; reflexivity|right]. destruct (@exists_last _ (y :: r)) as (a & x & E); [discriminate|]. exists a, x. exact E. Qed.

Lemma hdo_app l l' o : hdo (l ++ l') o = hdo l (hdo l' o).
Proof. destruct l; reflexivity. Qed.
Lemma lasto_cons x l : lasto (x :: l) = Some (match lasto l with None => x | Some y => y end).
Proof.
  revert x; induction l as [|y r IH]; intro x; [reflexivity|].
  change (lasto (x :: y :: r)) with (lasto (y :: r)). rewrite IH. reflexivity.
Qed.
Lemma lsto_cons x l o : lsto (x :: l) o = lsto l (Some x).
Proof. unfold lsto. rewrite lasto_cons. destruct (lasto l); reflexivity. Qed.
Lemma lsto_app l l' o : lsto (l ++ l') o = lsto l' (lsto l o).
Proof.
  revert o; induction l as [|x r IH]; intro o; [reflexivity|]. cbn [app]. rewrite !lsto_cons. apply IH.
Qed.
Lemma lsto_none l : lsto l None = lasto l.
Proof. unfold lsto. destruct (lasto l); reflexivity. Qed.
Lemma hdo_none l : hdo l None = hd_error l.
Proof. destruct l; reflexivity. Qed.

Lemma linkeds_app h par prev next a b :
  linkeds h par prev next (a ++ b) <->
  linkeds h par prev (hdo (map root b) next) a /\ linkeds h par (lsto (map root a) prev) next b.
Proof.
  revert prev; induction a as [|x r IH]; intro prev; cbn [app linkeds map].
  - unfold lsto. cbn [lasto]. tauto.
  - rewrite lsto_cons, IH, map_app, hdo_app. tauto.
Qed.

Lemma in_root_ptrs t : In (root t) (ptrs t).
Proof. destruct t. left. reflexivity. Qed.
Lemma roots_in_ptrs l x : In x (map root l) -> In x (flat_map ptrs l).
Proof.
  intro H. apply in_map_iff in H as (t & <- & H). apply in_flat_map. exists t. split; [exact H|apply in_root_ptrs].
Qed.
Lemma nodes_in_ptrs t x : In x (nodes t) -> In x (ptrs t).
Proof.
  induction t as [p a k IH] using ltree_ind'. cbn [nodes ptrs]. intros [H|H]; [left; exact H|right].
  apply in_or_app. right. apply in_flat_map in H as (y & Hy & Hx). apply in_flat_map. exists y. split; [exact Hy|].
  rewrite Forall_forall in IH. apply IH; assumption.
Qed.
Lemma node_live h par prev next t : linked h par prev next t -> forall x, In x (nodes t) -> hget h x <> None.
Proof.
  revert par prev next. induction t as [p a k IH] using ltree_ind'. intros par prev next L.
  apply linked_eq in L as [(c & L1 & _) L4]. cbn [nodes]. intros x [<-|H]; [congruence|].
  apply in_flat_map in H as (t & Ht & Hx). destruct (linkeds_in _ _ _ _ _ _ L4 Ht) as (pv & nx & Lt).
  rewrite Forall_forall in IH. eapply (IH t Ht); eassumption.
Qed.

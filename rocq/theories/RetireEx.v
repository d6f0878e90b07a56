(* Concrete histories with replacements, and a checker that shows them to be
   allowed.  Nothing here models code of /repo. *)
From Coq Require Import FMapPositive Permutation.
From Verif Require Import Base Utf8 Utf8Proofs XmlSpec Escape Scan Heap TreeShape TreeOps Forest ForestOps ForestAdd ForestAttr History TreeCalls TreeRead TreeReplace TreeAttrs TreeOwner Retire TreeEx.

(* ---- listing a subtree ---- *)
Fixpoint chain (h : heap) (n : nat) (o : option ptr) : list ptr :=
  match n, o with
  | S n', Some p => p :: match hget h p with Some c => chain h n' (l_next (lk c)) | None => [] end
  | _, _ => []
  end.
Definition first_of (h : heap) (p : ptr) : option ptr := match hget h p with Some c => l_first (lk c) | None => None end.
Definition props_of (h : heap) (p : ptr) : option ptr :=
  match hget h p with Some c => match dat c with DElem _ _ _ props => props | _ => None end | None => None end.
Fixpoint below (h : heap) (m n : nat) (p : ptr) : list ptr :=
  match n with
  | O => []
  | S n' => p :: flat_map (fun a => a :: chain h m (first_of h a)) (chain h m (props_of h p)) ++
                 flat_map (below h m n') (chain h m (first_of h p))
  end.
Lemma chain_path h l : forall o n, path h o l -> (List.length l <= n)%nat -> chain h n o = l.
Proof.
  induction l as [|x r IH]; intros o n P B; inversion P as [|p c l' E P']; subst; [destruct n; reflexivity|].
  cbn in B. destruct n as [|n]; [lia|]. cbn [chain]. rewrite E. f_equal. apply IH; [exact P'|lia].
Qed.
Lemma attrs_below h m : forall A pv, achain h pv A -> (List.length (attptrs A) <= m)%nat ->
  flat_map (fun a => a :: chain h m (first_of h a)) (map fst A) = attptrs A.
Proof.
  induction A as [|[a ks] r IH]; intros pv V B; [reflexivity|]. cbn [achain] in V. destruct V as [(c & E & Lc & _) [Vk V]].
  change (attptrs ((a, ks) :: r)) with (a :: ks ++ attptrs r) in *. cbn [map fst flat_map]. cbn [List.length] in B. rewrite app_length in B.
  rewrite (IH _ V) by lia. unfold first_of at 1. rewrite E, Lc. cbn [l_first].
  rewrite (chain_path h ks _ m (vchain_path _ _ _ _ Vk)) by lia. reflexivity.
Qed.
Lemma flat_len {A B} (f : A -> list B) l x : In x l -> (List.length (f x) <= List.length (flat_map f l))%nat.
Proof. induction l as [|y l IH]; [intros []|]. intros [->|H]; cbn; rewrite app_length; [lia|]. specialize (IH H). lia. Qed.
Lemma roots_len l : (List.length (map root l) <= List.length (flat_map ptrs l))%nat.
Proof. induction l as [|[p a k] l IH]; cbn [map flat_map ptrs List.length app]; [lia|]. rewrite app_length. lia. Qed.
Lemma map_fst_len A : (List.length (map fst A) <= List.length (attptrs A))%nat.
Proof. induction A as [|[a ks] A IH]; [cbn; lia|]. change (attptrs ((a, ks) :: A)) with (a :: ks ++ attptrs A). cbn [map List.length]. rewrite app_length. lia. Qed.
Lemma below_ptrs h m t : forall par pv nx n, linked h par pv nx t -> (List.length (ptrs t) <= n)%nat -> (List.length (ptrs t) <= m)%nat ->
  below h m n (root t) = ptrs t.
Proof.
  induction t as [p a k IH] using ltree_ind'. intros par pv nx n L B Bm. cbn [root ptrs] in *. cbn [List.length] in B, Bm. rewrite app_length in B, Bm.
  apply linked_eq in L as [(c & E & Lc & Pk) K]. destruct n as [|n]; [lia|]. cbn [below]. f_equal. f_equal.
  - unfold props_of. rewrite E. destruct (dat c) eqn:D; cbn [props_ok] in Pk;
      try (first [rewrite Pk|rewrite (proj1 Pk)|contradiction]; destruct m; reflexivity).
    destruct Pk as [-> Ac]. rewrite (chain_path h (map fst a)); [|eapply achain_path, Ac|pose proof (map_fst_len a); lia].
    eapply attrs_below; [exact Ac|lia].
  - unfold first_of. rewrite E, Lc. cbn [l_first]. rewrite <- hdo_none.
    rewrite (chain_path h (map root k)); [|eapply linkeds_path, K|pose proof (roots_len k); lia].
    assert (Bk : forall t, In t k -> (List.length (ptrs t) <= List.length (flat_map ptrs k))%nat) by (intros; apply flat_len; assumption).
    assert (Lk : forall t, In t k -> exists pv nx, linked h (Some p) pv nx t) by (intros t Ht; eapply linkeds_in; eassumption).
    rewrite Forall_forall in IH.
    assert (G : forall l, (forall t, In t l -> below h m n (root t) = ptrs t) -> flat_map (below h m n) (map root l) = flat_map ptrs l).
    { clear. induction l as [|t l I]; intro H; [reflexivity|]. cbn. rewrite H by (left; reflexivity). f_equal. apply I. intros u Hu. apply H. right. exact Hu. }
    apply G. intros t Ht. destruct (Lk t Ht) as (pv' & nx' & Lt). specialize (Bk t Ht). eapply IH; [exact Ht|exact Lt|lia|lia].
Qed.

(* in a heap that is a forest, the list is the subtree *)
Definition subtree (h : heap) (p : ptr) : list ptr := below h (size h) (size h) p.
Definition kids_list (h : heap) (p : ptr) : list ptr := chain h (size h) (first_of h p).
Lemma subtree_within h F G p : forest h F G -> live h p -> ~ in_attr h p -> forall x, In x (subtree h p) <-> within h p x.
Proof.
  intros FH (c & E) NA. destruct (node_tree _ _ _ _ _ FH E NA) as (a & k & par & pv & nx & L & Nd & I).
  pose proof (ptrs_small _ _ _ _ _ (f_ok _ _ _ FH) L Nd) as Sz. intro x. unfold subtree.
  change p with (root (N p a k)) at 1. rewrite (below_ptrs h (size h) _ _ _ _ (size h) L) by lia.
  exact (tree_within _ _ _ _ _ _ _ FH L I x).
Qed.
Lemma kids_children h F G p : forest h F G -> live h p -> ~ in_attr h p -> children h p (kids_list h p).
Proof.
  intros FH (c & E) NA. destruct (node_tree _ _ _ _ _ FH E NA) as (a & k & par & pv & nx & L & Nd & I).
  pose proof (ptrs_small _ _ _ _ _ (f_ok _ _ _ FH) L Nd) as Sz.
  assert (Dc : is_attr (dat c) = false).
  { destruct (is_attr (dat c)) eqn:D; [|reflexivity]. exfalso. apply NA. exists c. auto. }
  destruct (proj1 (forest_consistent _ _ _ FH p c E) Dc) as (cs & Ch). replace (kids_list h p) with cs; [exact Ch|].
  pose proof (linked_children _ _ _ _ _ _ _ _ _ _ FH L Ch) as ->. symmetry. unfold kids_list, first_of. rewrite E.
  destruct Ch as (c' & E' & P & _). rewrite E in E'. injection E' as <-. apply chain_path; [exact P|].
  cbn [ptrs List.length] in Sz. rewrite app_length in Sz. pose proof (roots_len k). lia.
Qed.

Definition kindb (h : heap) (p : ptr) (k : Z) : bool := match hget h p with Some c => typeOf (dat c) =? k | None => false end.
Lemma kindb_ok h p k : kindb h p k = true <-> kind h p = Some k.
Proof.
  unfold kindb, kind, data_of. destruct (hget h p) as [c|]; cbn; [|split; discriminate]. rewrite Z.eqb_eq. split; [intros ->; reflexivity|congruence].
Qed.
Definition fitb (h : heap) (c : tcall) : bool :=
  match c with
  | TOp o => allowedb h o
  | TReplace o q => match parent_of h o with Some p => attachableb h p q | None => false end && negb (kindb h o DocumentNode) && negb (in_attrb h o)
  | TRoot d r => attachableb h d r && kindb h d DocumentNode && kindb h r ElementNode &&
                 forallb (fun x => negb (kindb h x DocumentNode) && negb (in_attrb h x)) (kids_list h d)
  | TOwner _ p => liveb h p && negb (in_attrb h p)
  | TSpace e _ _ _ => kindb h e ElementNode
  end.
Definition goneb (h : heap) (c : tcall) : list ptr :=
  match c with
  | TReplace o _ => subtree h o
  | TRoot d _ => match find (fun x => kindb h x ElementNode) (kids_list h d) with Some o => subtree h o | None => [] end
  | _ => []
  end.
Lemma notb b : negb b = true -> b <> true.
Proof. destruct b; [discriminate|discriminate]. Qed.
Lemma fitb_ok h F G c : forest h F G -> fitb h c = true -> fit h c.
Proof.
  intros FH E. destruct c as [o|o q|d r|d p|e pf u act]; cbn [fit fitb] in *.
  - apply allowedb_ok, E.
  - apply andb_prop in E as [E _]. apply andb_prop in E as [E K]. destruct (parent_of h o) as [p|]; [|discriminate]. split.
    + exists p. split; [reflexivity|apply attachableb_ok, E].
    + intro X. apply kindb_ok in X. rewrite X in K. discriminate.
  - apply andb_prop in E as [E K]. apply andb_prop in E as [E Kr]. apply andb_prop in E as [A Kd]. apply attachableb_ok in A.
    refine (conj A (conj (proj1 (kindb_ok _ _ _) Kd) (conj (proj1 (kindb_ok _ _ _) Kr) _))). intros x Px X.
    destruct A as (Lv & NA & _). destruct (kids_children _ _ _ _ FH Lv NA) as (c & _ & _ & _ & _ & Par). apply Par in Px.
    rewrite forallb_forall in K. specialize (K x Px). apply andb_prop in K as [K _]. apply kindb_ok in X. rewrite X in K. discriminate.
  - apply andb_prop in E as [A B]. apply negb_true_iff in B. split; [apply liveb_ok, A|apply in_attrb_ok, B].
  - apply kindb_ok, E.
Qed.
Lemma kids_live h p cs x : children h p cs -> In x cs -> live h x.
Proof.
  intros (c & _ & _ & _ & _ & Par) Hx. apply Par in Hx. unfold parent_of in Hx. destruct (hget h x) eqn:E; [|discriminate]. eexists. exact E.
Qed.
Lemma goneb_ok h F G c : forest h F G -> fitb h c = true -> forall x, In x (goneb h c) <-> gone h c x.
Proof.
  intros FH E. pose proof (fitb_ok _ _ _ _ FH E) as Ft. destruct c as [o|o q|d r|d p|e pf u act]; cbn [fit fitb gone goneb] in *; try tauto.
  - apply andb_prop in E as [E A]. apply negb_true_iff in A. apply (subtree_within _ _ _ _ FH); [|apply in_attrb_ok, A].
    destruct Ft as [(p & P & _) _]. unfold parent_of in P. destruct (hget h o) eqn:X; [|discriminate]. eexists. exact X.
  - apply andb_prop in E as [E K]. rewrite forallb_forall in K. destruct Ft as ((Lv & NA & _) & _).
    pose proof (kids_children _ _ _ _ FH Lv NA) as Ch. intro x.
    destruct (find (fun x => kindb h x ElementNode) (kids_list h d)) as [o|] eqn:Fd.
    + assert (Sp : exists a b, kids_list h d = a ++ o :: b /\ (forall y, In y a -> kind h y <> Some ElementNode) /\ kind h o = Some ElementNode).
      { revert Fd. generalize (kids_list h d). clear. induction l as [|y l IH]; intro Fd; [discriminate|]. cbn [find] in Fd.
        destruct (kindb h y ElementNode) eqn:Ky.
        - injection Fd as <-. exists [], l. refine (conj eq_refl (conj _ (proj1 (kindb_ok _ _ _) Ky))). intros z [].
        - destruct (IH Fd) as (a & b & -> & Na & Ko). exists (y :: a), b. refine (conj eq_refl (conj _ Ko)). intros z [<-|Hz]; [|apply Na, Hz].
          intro X. apply kindb_ok in X. congruence. }
      destruct Sp as (a & b & Eq & Na & Ko). assert (Ho : In o (kids_list h d)) by (rewrite Eq; apply in_elt).
      rewrite (subtree_within _ _ _ _ FH (kids_live _ _ _ _ Ch Ho)).
      2: { apply in_attrb_ok. specialize (K o Ho). apply andb_prop in K as [_ K]. apply negb_true_iff, K. }
      rewrite Eq in Ch. split; [intro H; exists a, o, b; auto|]. intros (a' & o' & b' & Ch' & Na' & Ko' & H).
      destruct (first_split (fun y => kind h y = Some ElementNode) _ _ _ _ _ _ (children_unique _ _ _ _ Ch Ch') Na Ko Na' Ko') as (_ & -> & _). exact H.
    + split; [intros []|]. intros (a & o & b & Ch' & _ & Ko & _). assert (Ho : In o (kids_list h d)) by (rewrite (children_unique _ _ _ _ Ch Ch'); apply in_elt).
      pose proof (find_none _ _ Fd o Ho) as Z. cbv beta in Z. apply kindb_ok in Ko. congruence.
Qed.

(* running a list of calls, checking each, and collecting what goes out of use *)
Fixpoint runs (l : list tcall) (X : list ptr) (h : heap) : option (list ptr * heap) :=
  match l with
  | [] => Some (X, h)
  | c :: r => if fitb (drop X h) c then runs r (goneb (drop X h) c ++ X) (snd (run c h)) else None
  end.
Lemma runs_since (start : heap -> Prop) (Sound : forall h, start h -> sound h) l : forall X h X' h', runs l X h = Some (X', h') -> since start X h -> since start X' h'.
Proof.
  induction l as [|c r IH]; intros X h X' h' E L; cbn [runs] in E; [injection E as <- <-; exact L|].
  destruct (fitb (drop X h) c) eqn:Fb; [|discriminate]. destruct (since_forest _ Sound _ _ L) as (_ & F & G & FH).
  eapply IH; [exact E|]. destruct (run c h) as [y h2] eqn:Rn. eapply sinceS; [exact L|eapply fitb_ok; eassumption|exact Rn|].
  intro x. rewrite in_app_iff, (goneb_ok _ _ _ _ FH Fb). tauto.
Qed.

(* the tree of TreeEx.hx; the owner of the loose element 11 is set, b gets a
   namespace and is then replaced by 11, which in turn gets an
   attribute and another child; at last the loose element 18 becomes the root,
   replacing r with all below it, and gets a child *)
Definition calls1 : list tcall :=
  [TOwner (Some 1%positive) 11; TSpace 4 (s_ "p") (s_ "urn:p") true; TReplace 4 11; TOp (OSet 11 (s_ "z") (s_ "q")); TOp (OContent 11 (s_ "more"))]%positive.
Definition calls2 : list tcall :=
  (calls1 ++ [TOp (ONew None (el (s_ "top"))); TRoot 1 18; TOp (OContent 18 (s_ "end"))])%positive.
Definition life_of (l : list tcall) : list ptr * heap := match runs l [] hx with Some r => r | None => ([], empty_heap) end.
Lemma life_of_ok l : life (fst (life_of l)) (snd (life_of l)).
Proof.
  unfold life_of. destruct (runs l [] hx) as [[X h]|] eqn:E; [|constructor; reflexivity]. eapply (runs_since _ empty_sound); [exact E|apply reach_life, hx_reach].
Qed.
Lemma life_kids l p cs : match hget (snd (life_of l)) p with Some c => negb (is_attr (dat c)) | None => false end = true ->
  existsb (Pos.eqb p) (fst (life_of l)) = false -> pathb (drop (fst (life_of l)) (snd (life_of l))) (first_of (snd (life_of l)) p) cs = true ->
  children (drop (fst (life_of l)) (snd (life_of l))) p cs.
Proof.
  intros A B C. destruct (hget (snd (life_of l)) p) as [c|] eqn:E; [|discriminate]. apply negb_true_iff in A.
  assert (N : ~ In p (fst (life_of l))).
  { intro H. assert (T : existsb (Pos.eqb p) (fst (life_of l)) = true); [|congruence]. apply existsb_exists. exists p. split; [exact H|apply Pos.eqb_refl]. }
  unfold first_of in C. rewrite E in C. eapply children_by_path; [apply life_consistent, life_of_ok| |exact A|apply pathb_ok, C].
  rewrite (proj2 (hget_drop _ _ _) N). exact E.
Qed.

(* the next siblings of 6 and 4 are each other *)
Definition hc : heap := snd (AddChild 2%positive 4%positive (snd (life_of calls1))).
Lemma hc_loops : forall n, (contents hc n (Some 6%positive) = Oof /\ contents hc n (Some 4%positive) = Oof).
Proof.
  assert (A : forall c, hget hc 6%positive = Some c -> l_next (lk c) = Some 4%positive) by (vm_compute; intros c E; injection E as <-; reflexivity).
  assert (B : forall c, hget hc 4%positive = Some c -> l_next (lk c) = Some 6%positive) by (vm_compute; intros c E; injection E as <-; reflexivity).
  assert (C6 : forall n, content hc n 6%positive = Oof \/ exists s, content hc n 6%positive = Ret s).
  { intros [|n]; [left; reflexivity|]. right. eexists. cbn [content]. vm_compute. reflexivity. }
  assert (C5 : forall n, contents hc n (Some 5%positive) = Oof \/ exists s, contents hc n (Some 5%positive) = Ret s).
  { intros [|[|n]]; [left; reflexivity|left; reflexivity|]. right. eexists. vm_compute. reflexivity. }
  assert (C4 : forall n, content hc n 4%positive = Oof \/ exists s, content hc n 4%positive = Ret s).
  { intros [|n]; [left; reflexivity|]. replace (content hc (S n) 4%positive) with (contents hc n (Some 5%positive)); [apply C5|]. vm_compute. reflexivity. }
  induction n as [|n [I6 I4]]; [split; reflexivity|]. split; cbn [contents].
  - destruct (hget hc 6%positive) as [c|] eqn:E; [|vm_compute in E; discriminate]. rewrite (A _ eq_refl), I4.
    destruct (C6 n) as [->|(s & ->)]; reflexivity.
  - destruct (hget hc 4%positive) as [c|] eqn:E; [|vm_compute in E; discriminate]. rewrite (B _ eq_refl), I6.
    destruct (C4 n) as [->|(s & ->)]; reflexivity.
Qed.
Lemma hc_content n : content hc n 2%positive = Oof.
Proof.
  destruct n as [|n]; [reflexivity|]. transitivity (contents hc n (Some 3%positive)); [reflexivity|].
  destruct n as [|n]; [reflexivity|]. transitivity (obind (content hc n 3%positive) (fun s => obind (contents hc n (Some 11%positive)) (fun r => Ret (s ++ r)))); [reflexivity|].
  destruct n as [|n]; [reflexivity|]. change (content hc (S n) 3%positive) with (Ret (E := herr) (s_ "a")).
  assert (Z : contents hc (S n) (Some 11%positive) = Oof); [|rewrite Z; reflexivity].
  transitivity (obind (content hc n 11%positive) (fun s => obind (contents hc n (Some 6%positive)) (fun r => Ret (s ++ r)))); [reflexivity|].
  rewrite (proj1 (hc_loops n)). destruct n as [|n]; [reflexivity|]. change (content hc (S n) 11%positive) with (contents hc n (Some 13%positive)).
  destruct n as [|[|n]]; reflexivity.
Qed.
Lemma loop_path l : ~ path hc (Some 6%positive) l.
Proof.
  assert (A : forall c, hget hc 6%positive = Some c -> l_next (lk c) = Some 4%positive) by (vm_compute; intros c E; injection E as <-; reflexivity).
  assert (B : forall c, hget hc 4%positive = Some c -> l_next (lk c) = Some 6%positive) by (vm_compute; intros c E; injection E as <-; reflexivity).
  assert (G : forall n l, (List.length l <= n)%nat -> ~ path hc (Some 6%positive) l).
  { induction n as [|n IH]; intros k Lk P; inversion P as [|p c r E P']; subst; cbn in Lk; [lia|].
    rewrite (A _ E) in P'. inversion P' as [|p' c' r' E' P'']; subst. rewrite (B _ E') in P''. cbn in Lk. eapply IH; [|exact P'']. lia. }
  eapply G. apply le_n.
Qed.
Lemma hc_no_children cs : ~ children hc 2%positive cs.
Proof.
  intros (c & E & P & _). vm_compute in E. injection E as <-. cbn [lk l_first] in P.
  inversion P as [|p c r E P']; subst. vm_compute in E. injection E as <-. cbn [lk l_next] in P'.
  inversion P' as [|p c r' E P'']; subst. vm_compute in E. injection E as <-. cbn [lk l_next] in P''. exact (loop_path _ P'').
Qed.

(* SetAttribute and Attributes. *)
From Coq Require Import FMapPositive Permutation.
From Verif Require Import Base Utf8 Utf8Proofs XmlSpec Escape Scan Heap TreeShape TreeOps Forest ForestOps ForestAdd ForestAttr History TreeCalls TreeReplace.

Lemma attrChain_run h l : forall n o, path h o l ->
  (forall a, In a l -> exists c nm df, hget h a = Some c /\ dat c = DAttr nm df) -> (List.length l <= n)%nat ->
  attrChain h n o = Ret l.
Proof.
  induction l as [|x r IH]; intros n o P At B; inversion P as [|p c l' E P1]; subst; [destruct n; reflexivity|].
  destruct n as [|n]; [cbn in B; lia|]. destruct (At x (or_introl eq_refl)) as (c' & nm & df & E' & D).
  rewrite E in E'. injection E' as <-. cbn [attrChain]. rewrite E, D.
  rewrite (IH n (l_next (lk c)) P1); [reflexivity|intros a Ha; apply At; right; exact Ha|cbn in B; lia].
Qed.

Lemma nodup_app_intro {A} (a b : list A) : NoDup a -> NoDup b -> (forall x, In x a -> In x b -> False) -> NoDup (a ++ b).
Proof.
  induction a as [|x a IH]; cbn; intros Na Nb D; [exact Nb|]. apply NoDup_cons_iff in Na as [N1 N2]. constructor.
  - intro X. apply in_app_or in X as [X|X]; [contradiction|]. apply (D x); [left; reflexivity|exact X].
  - apply IH; [exact N2|exact Nb|]. intros y Y. apply D. right. exact Y.
Qed.

(* the attributes of an element of a tree *)
Lemma tree_attributes h par pv nx e A k : hok h -> linked h par pv nx (N e A k) -> NoDup (ptrs (N e A k)) ->
  kind h e = Some ElementNode -> Attributes h e = Ret (map fst A).
Proof.
  intros Hk L Nd Ke. apply linked_eq in L as [(c & M1 & M2 & M3) _]. rewrite (kind_some _ _ _ M1) in Ke. injection Ke as Ke.
  unfold Attributes. rewrite M1. destruct (dat c) eqn:D; try discriminate. cbn [props_ok] in M3. destruct M3 as [-> Ac].
  pose proof (achain_path _ _ _ Ac) as P. apply attrChain_run; [exact P|intros a Ha; exact (achain_attr _ _ _ _ Ac Ha)|].
  assert (NdA : NoDup (map fst A)).
  { cbn [ptrs] in Nd. apply NoDup_cons_iff in Nd as [_ Nd]. apply nodup_app_l in Nd. clear - Nd.
    induction A as [|[x kx] A IH]; [constructor|].
    change (attptrs ((x, kx) :: A)) with ((x :: kx) ++ attptrs A) in Nd. cbn [map fst]. constructor.
    - intro X. apply in_map_iff in X as ([y ky] & E & X). cbn in E. subst y.
      apply (nodup_app_disj _ _ x Nd); [left; reflexivity|]. apply in_flat_map. exists (x, ky). split; [exact X|left; reflexivity].
    - apply IH. eapply nodup_app_r; exact Nd. }
  pose proof (path_size _ _ _ Hk P NdA). lia.
Qed.

(* what an attribute says *)
Definition attr_is (h : heap) (a : ptr) (name value : str) : Prop :=
  attr_named h name a /\ forall n, (3 <= n)%nat -> Content n a h = (Ret value, h).

(* the values of an attribute chain are read from cells of the chain *)
Lemma vchain_contents h h' a ks : agree h h' ks -> forall pv, vchain h a pv ks -> forall n,
  contents h' n (hd_error ks) = contents h n (hd_error ks).
Proof.
  intros Ag. induction ks as [|x r IH]; intros pv V n; [destruct n; reflexivity|]. cbn [vchain] in V.
  destruct V as [(c & E & Lc & s & D) V2]. apply agree_cons in Ag as [Ax Ar].
  destruct n as [|n]; [reflexivity|]. cbn [hd_error contents]. rewrite Ax, E, Lc. cbn [l_next].
  assert (Ec : content h' n x = content h n x) by (destruct n; [reflexivity|]; cbn [content]; rewrite Ax, E, D; reflexivity).
  rewrite Ec. destruct (content h n x); cbn [obind]; try reflexivity. rewrite (IH Ar _ V2 n). reflexivity.
Qed.

Lemma SetAttribute_adds h e name v text l :
  sound h -> kind h e = Some ElementNode -> Forall (fun r => valid_rune r = true) v -> decodes v text ->
  Attributes h e = Ret l -> (forall x, In x l -> ~ attr_named h name x) ->
  exists a h', SetAttribute (S (List.length v)) e name (utf8 v) h = (Ret tt, h') /\
    Attributes h' e = Ret (l ++ [a]) /\ attr_is h' a name (utf8 text) /\
    (forall x nm df, In x l -> data_of h x = Some (DAttr nm df) -> data_of h' x = Some (DAttr nm df) /\
       forall n, fst (Content n x h') = fst (Content n x h)) /\
    (forall x c, hget h x = Some c -> x <> e -> ~ In x l -> hget h' x = Some c) /\
    (forall c, hget h e = Some c -> exists c', hget h' e = Some c' /\ lk c' = lk c /\ owner c' = owner c /\
       exists nm ns defs p p', dat c = DElem nm ns defs p /\ dat c' = DElem nm ns defs p').
Proof.
  intros R Ke Vv Nv Al Nn. pose proof R as (F & G & FH).
  pose proof Ke as Ke0. unfold kind, data_of in Ke. destruct (hget h e) as [ce|] eqn:Ee; [|discriminate]. cbn in Ke. injection Ke as Ke.
  assert (Rv : decodes (runes_of (utf8 v)) text) by (rewrite runes_of_utf8 by exact Vv; exact Nv).
  assert (Ln : (List.length text < S (List.length v))%nat) by (apply decodes_length in Nv; lia).
  assert (Evt : utf8 v = [] <-> text = []) by (rewrite utf8_nil; apply decodes_nil, Nv).
  destruct (SetAttribute_forest (S (List.length v)) h F G e ce name (utf8 v) text FH Ee Ke Rv Evt Ln)
    as (r & h' & Rn & Ef & F' & G' & FH').
  (* the element is a node of the forest *)
  pose proof (f_ok _ _ _ FH) as Hk.
  assert (NAe : ~ in_attr h e).
  { intro X. destruct (forest_live _ _ _ _ _ FH Ee) as [Y|[[Y _]|(a & ca & s & _ & _ & _ & Y & _)]].
    - destruct (forest_sub _ _ _ _ FH Y) as (a & k & par & pv & nx & L & _).
      destruct X as (c & E & X). rewrite Ee in E. injection E as <-. destruct X as [X|(q & d & X1 & X2 & X3)].
      + destruct (dat ce); discriminate.
      + assert (Yq : In q (fnodes F)) by (destruct (forest_parent _ _ _ _ _ _ FH Y Ee X1) as (? & ? & ? & ? & ? & _ & _ & Z); exact Z).
        destruct (forest_sub _ _ _ _ FH Yq) as (a2 & k2 & par2 & pv2 & nx2 & L2 & _).
        rewrite (node_not_attr _ _ _ _ _ _ _ L2 (or_introl eq_refl) X2) in X3. discriminate.
    - destruct (dat ce); discriminate.
    - rewrite Y in Ke. discriminate. }
  destruct Ef as [o A k par pv nx a ks h1 h' L M Ad NN|o A k par pv nx a ks x h' L M Hx Nx].
  2:{ exfalso. apply (Nn x); [|exact Nx].
      destruct (forest_sub _ _ _ _ FH (forest_node _ _ _ _ _ FH Ee NAe)) as (A2 & k2 & par2 & pv2 & nx2 & L2 & Nd2 & _).
      assert (EA : map fst A = map fst A2).
      { apply linked_eq in L as [(c1 & M1 & _ & M3) _], L2 as [(c2 & M4 & _ & M5) _]. rewrite Ee in M1, M4. injection M1 as <-. injection M4 as <-.
        destruct (dat ce); try discriminate. destruct M3 as [P1 C1], M5 as [P2 C2].
        apply achain_path in C1, C2. rewrite <- P1 in C1. rewrite <- P2 in C2. exact (path_fun _ _ _ C1 _ C2). }
      rewrite (tree_attributes _ _ _ _ _ _ _ Hk L2 Nd2 Ke0) in Al. injection Al as <-. rewrite <- EA. exact Hx. }
  destruct (forest_sub _ _ _ _ FH (forest_node _ _ _ _ _ FH Ee NAe)) as (A2 & k2 & par2 & pv2 & nx2 & L2 & Nd2 & _).
  assert (EA : map fst A = map fst A2).
  { apply linked_eq in L as [(c1 & M1 & _ & M3) _]. pose proof L2 as L2'. apply linked_eq in L2' as [(c2 & M4 & _ & M5) _].
    rewrite Ee in M1, M4. injection M1 as <-. injection M4 as <-.
    destruct (dat ce); try discriminate. destruct M3 as [P1 C1], M5 as [P2 C2].
    apply achain_path in C1, C2. rewrite <- P1 in C1. rewrite <- P2 in C2. exact (path_fun _ _ _ C1 _ C2). }
  rewrite (tree_attributes _ _ _ _ _ _ _ Hk L2 Nd2 Ke0) in Al. injection Al as <-. rewrite EA in Ad, NN. clear A k par pv nx L EA.
  rename A2 into A, k2 into k, par2 into par, pv2 into pv, nx2 into nx, L2 into L, Nd2 into Nd.
  exists a, h'. split; [exact Rn|].
  pose proof (made_chain _ _ _ _ _ _ _ M) as Mc.
  assert (Tlive : forall x, In x (ptrs (N e A k)) -> (x < nxt h)%positive).
  { intros x Hx. destruct (ptrs_cases _ _ _ _ _ _ L Hx) as [X|(p1 & pr & nm & ns & df & a1 & c1 & _ & _ & X3 & X4)].
    - destruct (find_sub _ _ _ _ _ _ L X) as (a' & k' & par' & pv' & nx' & Ls & _).
      apply linked_eq in Ls as [(c & E & _) _]. exact (Hk _ _ E).
    - destruct (achain_in _ _ _ _ X3 X4) as (cx & Ex & _). exact (Hk _ _ Ex). }
  assert (Nd1 : NoDup (ptrs (N e A k) ++ a :: ks)).
  { apply nodup_app_intro; [exact Nd| |].
    - destruct M as [-> M]. destruct (utf8 text); [destruct M as (-> & _); repeat constructor; intros []|].
      destruct M as (-> & _). constructor; [intros [X|[]]; lia|repeat constructor; intros []].
    - intros x X Y. pose proof (made_new _ _ _ _ _ _ _ _ M Y). specialize (Tlive x X). lia. }
  assert (L1 : linked h1 par pv nx (N e A k)).
  { eapply linked_frame; [exact L|]. intros x Hx. eapply made_old; [exact M|apply Tlive, Hx]. }
  assert (Te1 : forall c, hget h1 e = Some c -> typeOf (dat c) = ElementNode).
  { intros c E. rewrite (made_old _ _ _ _ _ _ _ _ M (Hk _ _ Ee)), Ee in E. injection E as <-. exact Ke. }
  pose proof (linked_addatt _ _ _ _ _ _ _ _ _ _ L1 Mc Nd1 Te1 Ad) as L'.
  pose proof (f_ok _ _ _ FH') as Hk'.
  (* the cells afterwards *)
  assert (Cell : forall x c, hget h x = Some c -> x <> e -> ~ In x (map fst A) -> hget h' x = Some c).
  { intros x c E Hxe HxA. assert (E1 : hget h1 x = Some c) by (rewrite (made_old _ _ _ _ _ _ _ _ M (Hk _ _ E)); exact E).
    assert (Hxa : x <> a) by (intros ->; pose proof (Hk _ _ E); destruct M as [Ma _]; lia).
    destruct Ad as [_ Ad]. destruct (lasto (map fst A)) as [z|] eqn:El.
    - rewrite Ad. destruct (Pos.eqb_spec x a); [contradiction|]. destruct (Pos.eqb_spec x z) as [->|]; [|exact E1].
      exfalso. apply HxA, lasto_in, El.
    - destruct Ad as (c0 & nm & ns & defs & _ & _ & Ad). rewrite Ad. destruct (Pos.eqb_spec x e); [contradiction|exact E1]. }
  assert (CellE : exists c', hget h' e = Some c' /\ lk c' = lk ce /\ owner c' = owner ce /\
       exists nm ns defs p p', dat ce = DElem nm ns defs p /\ dat c' = DElem nm ns defs p').
  { assert (E1 : hget h1 e = Some ce) by (rewrite (made_old _ _ _ _ _ _ _ _ M (Hk _ _ Ee)); exact Ee).
    destruct Ad as [_ Ad]. destruct (lasto (map fst A)) as [z|] eqn:El.
    - exists ce. rewrite Ad. pose proof (Hk _ _ Ee) as Hlt. destruct (Pos.eqb_spec e a) as [X|_]; [destruct M as [Ma _]; lia|].
      destruct (Pos.eqb_spec e z) as [->|_].
      + exfalso. apply lasto_in in El. cbn [ptrs] in Nd. apply NoDup_cons_iff in Nd as [Nd _]. apply Nd, in_or_app. left.
        apply in_map_iff in El as ([y ky] & X & El). cbn in X. subst y. apply in_flat_map. exists (z, ky). split; [exact El|left; reflexivity].
      + split; [exact E1|]. split; [reflexivity|]. split; [reflexivity|]. destruct (dat ce); try discriminate. repeat eexists.
    - destruct Ad as (c0 & nm & ns & defs & E0 & D0 & Ad). rewrite E1 in E0. injection E0 as <-.
      eexists. split; [rewrite Ad, Pos.eqb_refl; reflexivity|]. cbn. repeat (split; [reflexivity|]). repeat eexists; eassumption. }
  assert (Ke' : kind h' e = Some ElementNode).
  { destruct CellE as (c' & E' & _ & _ & nm & ns & defs & p & p' & _ & D'). rewrite (kind_some _ _ _ E'), D'. reflexivity. }
  assert (Nd' : NoDup (ptrs (N e (A ++ [(a, ks)]) k))).
  { eapply Permutation_NoDup; [|exact Nd1]. cbn [ptrs app]. apply perm_skip. unfold attptrs. rewrite flat_map_app.
    cbn [flat_map fst snd]. rewrite app_nil_r. rewrite <- !app_assoc. apply Permutation_app_head.
    apply Permutation_app_comm. }
  refine (conj _ (conj _ (conj _ (conj Cell _)))).
  - rewrite (tree_attributes _ _ _ _ _ _ _ Hk' L' Nd' Ke'), map_app. reflexivity.
  - (* the new attribute *)
    apply linked_eq in L' as [(ce' & Ee' & _ & Pk) _]. destruct CellE as (c2 & E2 & _ & _ & nm & ns & defs & p & p' & _ & D').
    rewrite Ee' in E2. injection E2 as <-. rewrite D' in Pk. cbn [props_ok] in Pk. destruct Pk as [_ Ac'].
    assert (Ha1 : hget h1 a = Some (attr_cell name ks)).
    { destruct M as [-> M]. destruct (utf8 text); destruct M as (_ & _ & M); rewrite M, Pos.eqb_refl; reflexivity. }
    assert (Hea : e <> a) by (intros ->; pose proof (Hk _ _ Ee); destruct M as [Ma _]; lia).
    assert (Ha : exists ca, hget h' a = Some ca /\ l_first (lk ca) = hd_error ks /\ dat ca = DAttr name false).
    { destruct Ad as [_ Ad]. destruct (lasto (map fst A)) as [z|].
      - rewrite Ad, Pos.eqb_refl, Ha1. eexists. split; [reflexivity|]. split; reflexivity.
      - destruct Ad as (c0 & nm0 & ns0 & defs0 & _ & _ & Ad). rewrite Ad. destruct (Pos.eqb_spec a e); [congruence|].
        rewrite Ha1. eexists. split; [reflexivity|]. split; reflexivity. }
    destruct Ha as (ca & Ea & Fa & Da). split; [exists ca, false; auto|].
    intros n Hn. unfold Content. f_equal. destruct n as [|[|[|n]]]; try lia. cbn [content]. rewrite Ea, Da, Fa.
    (* its value *)
    destruct (utf8 text) as [|b bs] eqn:Eu.
    + destruct M as (_ & -> & _). reflexivity.
    + destruct M as (Ma & -> & _ & M). cbn [hd_error contents].
      assert (Ev : exists cv, hget h' (Pos.succ a) = Some cv /\ dat cv = DText (b :: bs) /\ l_next (lk cv) = None).
      { assert (E1 : hget h1 (Pos.succ a) = Some {| lk := Lk None None (Some a) None None; owner := o; dat := DText (b :: bs) |}).
        { rewrite M, Pos.eqb_refl. destruct (Pos.eqb_spec (Pos.succ a) a); [lia|reflexivity]. }
        exists {| lk := Lk None None (Some a) None None; owner := o; dat := DText (b :: bs) |}. split; [|split; reflexivity].
        destruct Ad as [_ Ad]. destruct (lasto (map fst A)) as [z|] eqn:El.
        - rewrite Ad. destruct (Pos.eqb_spec (Pos.succ a) a); [lia|]. destruct (Pos.eqb_spec (Pos.succ a) z) as [X|]; [|exact E1].
          exfalso. apply lasto_in in El. assert (In z (ptrs (N e A k))).
          { cbn [ptrs]. right. apply in_or_app. left. apply in_map_iff in El as ([y ky] & Y & El). cbn in Y. subst y.
            apply in_flat_map. exists (z, ky). split; [exact El|left; reflexivity]. }
          pose proof (Tlive z H). lia.
        - destruct Ad as (c0 & nm0 & ns0 & defs0 & _ & _ & Ad). rewrite Ad. destruct (Pos.eqb_spec (Pos.succ a) e) as [X|]; [|exact E1].
          pose proof (Hk _ _ Ee). lia. }
      destruct Ev as (cv & Ev & Dv & Nx). cbn [content]. rewrite !Ev. rewrite Dv, Nx. cbn [content contents obind]. rewrite app_nil_r. reflexivity.
  - (* the others *)
    intros x nm df Hx Dx. destruct (data_of_some _ _ _ Dx) as (cx & Ex & Dcx).
    assert (E1 : hget h1 x = Some cx) by (rewrite (made_old _ _ _ _ _ _ _ _ M (Hk _ _ Ex)); exact Ex).
    assert (Hxa : x <> a) by (intros ->; pose proof (Hk _ _ Ex); destruct M as [Ma _]; lia).
    assert (Hxe : x <> e) by (intros ->; rewrite Ee in Ex; injection Ex as <-; rewrite Dcx in Ke; discriminate).
    assert (Ex' : exists cx', hget h' x = Some cx' /\ dat cx' = dat cx /\ l_first (lk cx') = l_first (lk cx)).
    { destruct Ad as [_ Ad]. destruct (lasto (map fst A)) as [z|].
      - rewrite Ad. destruct (Pos.eqb_spec x a); [contradiction|]. destruct (Pos.eqb_spec x z) as [->|]; [rewrite E1|]; cbn; eauto.
      - destruct Ad as (c0 & nm0 & ns0 & defs0 & _ & _ & Ad). rewrite Ad. destruct (Pos.eqb_spec x e); [contradiction|]. eauto. }
    destruct Ex' as (cx' & Ex' & Dx' & Fx'). split; [unfold data_of; rewrite Ex'; cbn; congruence|].
    intro n. unfold Content. cbn [fst]. destruct n as [|n]; [reflexivity|]. cbn [content]. rewrite Ex, Ex', Dx', Dcx, Fx'.
    (* the value chain of x *)
    apply linked_eq in L as [(ce2 & Ee2 & _ & Pk) _]. rewrite Ee in Ee2. injection Ee2 as <-.
    destruct (dat ce) eqn:De; try discriminate. cbn [props_ok] in Pk. destruct Pk as [_ Ac].
    assert (Vx : forall pv0, achain h pv0 A -> exists kx, In (x, kx) A /\ l_first (lk cx) = hd_error kx /\ vchain h x None kx).
    { clear - Hx Ex. induction A as [|[y ky] r IH]; intros pv0 Ac; [destruct Hx|].
      cbn [achain] in Ac. destruct Ac as [(c & E & Lc & _) [V Ac]]. cbn [map fst] in Hx. destruct (Pos.eqb_spec y x) as [->|Hne].
      - exists ky. split; [left; reflexivity|]. rewrite E in Ex. injection Ex as <-. rewrite Lc. auto.
      - destruct Hx as [Hx|Hx]; [congruence|]. destruct (IH Hx _ Ac) as (kx & X & Y). exists kx. split; [right; exact X|exact Y]. }
    destruct (Vx _ Ac) as (kx & Hkx & Fk & Vk). rewrite Fk. eapply vchain_contents; [|exact Vk].
    intros y Hy. destruct (vchain_in _ _ _ _ _ Vk Hy) as (cy & s & Ey & Py & _). rewrite Ey. apply Cell; [exact Ey|..].
    + intros ->. apply NAe. exists cy. split; [exact Ey|]. right. exists x, cx. split; [exact Py|]. split; [exact Ex|]. rewrite Dcx. reflexivity.
    + intro X. destruct (achain_attr _ _ _ _ Ac X) as (c2 & nm2 & df2 & E2 & D2). rewrite Ey in E2. injection E2 as <-.
      destruct (vchain_in _ _ _ _ _ Vk Hy) as (cy2 & s2 & Ey2 & _ & _ & _ & D3). rewrite Ey in Ey2. injection Ey2 as <-. congruence.
  - intros c E. injection E as <-. exact CellE.
Qed.

Lemma SetAttribute_refuses h e name v text l x :
  sound h -> kind h e = Some ElementNode -> Forall (fun r => valid_rune r = true) v -> decodes v text ->
  Attributes h e = Ret l -> In x l -> attr_named h name x ->
  exists h', SetAttribute (S (List.length v)) e name (utf8 v) h = (Fail "ErrDuplicateAttribute"%string, h') /\
    (forall y c, hget h y = Some c -> hget h' y = Some c) /\ Attributes h' e = Ret l.
Proof.
  intros R Ke Vv Nv Al Hx Nx. pose proof R as (F & G & FH).
  pose proof Ke as Ke0. unfold kind, data_of in Ke. destruct (hget h e) as [ce|] eqn:Ee; [|discriminate]. cbn in Ke. injection Ke as Ke.
  assert (Rv : decodes (runes_of (utf8 v)) text) by (rewrite runes_of_utf8 by exact Vv; exact Nv).
  assert (Ln : (List.length text < S (List.length v))%nat) by (apply decodes_length in Nv; lia).
  assert (Evt : utf8 v = [] <-> text = []) by (rewrite utf8_nil; apply decodes_nil, Nv).
  destruct (SetAttribute_forest (S (List.length v)) h F G e ce name (utf8 v) text FH Ee Ke Rv Evt Ln)
    as (r & h' & Rn & Ef & F' & G' & FH').
  pose proof (f_ok _ _ _ FH) as Hk.
  assert (AL : forall hh nm ns defs p, hget hh e = hget h e -> dat ce = DElem nm ns defs p -> Attributes hh e = attrChain hh (size hh) p).
  { intros hh nm ns defs p E D. unfold Attributes. rewrite E, Ee, D. reflexivity. }
  destruct Ef as [o A k par pv nx a ks h1 h' L M Ad NN|o A k par pv nx a ks x' h' L M Hx' Nx'].
  - exfalso. apply linked_eq in L as [(c & M1 & _ & M3) _]. rewrite Ee in M1. injection M1 as <-.
    destruct (dat ce) eqn:De; try discriminate. destruct M3 as [P1 C1].
    apply achain_path in C1. rewrite <- P1 in C1. rewrite (AL h _ _ _ _ eq_refl eq_refl) in Al.
    assert (P : path h props l).
    { clear - Al. revert l Al. generalize (size h). intro n. revert props. induction n as [|n IH]; intros o l Al; cbn [attrChain] in Al;
        (destruct o as [q|]; [|injection Al as <-; constructor]); [discriminate|].
      destruct (hget h q) as [c|] eqn:E; [|discriminate]. destruct (dat c); try discriminate.
      destruct (attrChain h n (l_next (lk c))) as [r| | |] eqn:E2; try discriminate. cbn in Al. injection Al as <-.
      econstructor; [exact E|]. apply IH, E2. }
    rewrite (path_fun _ _ _ P _ C1) in Hx. exact (NN x Hx Nx).
  - exists h'. split; [exact Rn|].
    assert (Cell : forall y c, hget h y = Some c -> hget h' y = Some c).
    { intros y c E. rewrite (made_old _ _ _ _ _ _ _ _ M (Hk _ _ E)). exact E. }
    split; [exact Cell|].
    apply linked_eq in L as [(c & M1 & _ & M3) _]. rewrite Ee in M1. injection M1 as <-.
    destruct (dat ce) eqn:De; try discriminate. destruct M3 as [P1 C1].
    rewrite (AL h _ _ _ _ eq_refl eq_refl) in Al. rewrite (AL h' _ _ _ _ (eq_trans (Cell _ _ Ee) (eq_sym Ee)) eq_refl).
    assert (Mono : (size h <= size h')%nat).
    { unfold size. destruct M as [Ma M]. destruct (utf8 text); destruct M as (_ & Nn & _); rewrite Nn, Ma; lia. }
    clear - Al Cell Mono. revert Mono. generalize (size h'). revert l Al. generalize (size h). intro n. revert props.
    induction n as [|n IH]; intros o l Al m Mono; cbn [attrChain] in Al.
    + destruct o; [discriminate|]. injection Al as <-. destruct m; reflexivity.
    + destruct o as [q|]; [|injection Al as <-; destruct m; reflexivity]. destruct m as [|m]; [lia|]. cbn [attrChain].
      destruct (hget h q) as [c|] eqn:E; [|discriminate]. rewrite (Cell _ _ E). destruct (dat c); try discriminate.
      destruct (attrChain h n (l_next (lk c))) as [r| | |] eqn:E2; try discriminate. cbn in Al. injection Al as <-.
      rewrite (IH _ _ E2) by lia. reflexivity.
Qed.

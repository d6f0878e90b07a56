(* AddSibling, AddChild and AddContent on a forest. *)
From Coq Require Import FMapPositive Permutation.
From Verif Require Import Base Utf8 Escape Scan Heap TreeShape TreeOps Forest ForestOps.

(* What AddSibling may do. *)
Inductive sib_effect (h : heap) (p q : ptr) : outcome herr unit -> heap -> Prop :=
| sib_merge cp cq s t h' :
    hget h p = Some cp -> hget h q = Some cq -> dat cp = DText s -> dat cq = DText t ->
    redata h p (DText (s ++ t)) h' -> sib_effect h p q (Ret tt) h'
| sib_doc cp e : hget h p = Some cp -> typeOf (dat cp) = DocumentNode -> sib_effect h p q (Fail e) h
| sib_join cp cq h' :
    hget h p = Some cp -> hget h q = Some cq -> typeOf (dat cp) <> DocumentNode ->
    ~ (typeOf (dat cp) = TextNode /\ typeOf (dat cq) = TextNode) ->
    joined h p q h' -> sib_effect h p q (Ret tt) h'.
(* What AddChild may do. *)
Inductive child_effect (h : heap) (p q : ptr) : outcome herr unit -> heap -> Prop :=
| ce_text cp cq s t h' :
    hget h p = Some cp -> hget h q = Some cq -> dat cp = DText s -> dat cq = DText t ->
    redata h p (DText (s ++ t)) h' -> child_effect h p q (Ret tt) h'
| ce_comment cp cq s t h' :
    hget h p = Some cp -> hget h q = Some cq -> dat cp = DComment s -> dat cq = DComment t ->
    redata h p (DComment (s ++ t)) h' -> child_effect h p q (Ret tt) h'
| ce_refuse cp cq e :
    hget h p = Some cp -> hget h q = Some cq -> no_kids_data (dat cp) = true ->
    typeOf (dat cp) <> typeOf (dat cq) -> child_effect h p q (Fail e) h
| ce_merge cp cq cl l s t h' :
    hget h p = Some cp -> no_kids_data (dat cp) = false -> l_last (lk cp) = Some l ->
    hget h l = Some cl -> hget h q = Some cq -> dat cl = DText s -> dat cq = DText t ->
    redata h l (DText (s ++ t)) h' -> child_effect h p q (Ret tt) h'
| ce_doc cp cl l e :
    hget h p = Some cp -> no_kids_data (dat cp) = false -> l_last (lk cp) = Some l ->
    hget h l = Some cl -> typeOf (dat cl) = DocumentNode -> child_effect h p q (Fail e) h
| ce_grow cp cq h' :
    hget h p = Some cp -> hget h q = Some cq -> no_kids_data (dat cp) = false ->
    (forall l cl, l_last (lk cp) = Some l -> hget h l = Some cl ->
       ~ (typeOf (dat cl) = TextNode /\ typeOf (dat cq) = TextNode)) ->
    grown h p q h' -> child_effect h p q (Ret tt) h'.

Lemma redata_run h p c d : hget h p = Some c -> exists h', setData p d h = (Ret tt, h') /\ redata h p d h'.
Proof.
  intro E. eexists. split; [unfold setData; erewrite upd_run; [reflexivity|exact E]|]. split; [reflexivity|].
  intro x. rewrite hget_hset. destruct (Pos.eqb_spec x p) as [->|]; [rewrite E; reflexivity|reflexivity].
Qed.
Lemma text_type d : typeOf d = TextNode -> exists s, d = DText s.
Proof. destruct d; cbn; intro H; try discriminate. eauto. Qed.
Lemma doc_type d : typeOf d = DocumentNode -> exists a b c e f, d = DDoc a b c e f.
Proof. destruct d; cbn; intro H; try discriminate. repeat eexists. Qed.

Lemma AddSibling_forest h F G p q :
  forest h F G -> attachable h p q ->
  exists r h', AddSibling p q h = (r, h') /\ sib_effect h p q r h' /\ exists F', forest h' F' G.
Proof.
  intros FH A. destruct (addSibling_forest _ _ _ _ _ FH A) as (hj & R & J & Fj).
  destruct A as ((cp & Ep) & NAt & (cq & Eq & _) & NAn).
  assert (NT : (typeOf (dat cp) = TextNode /\ typeOf (dat cq) = TextNode) \/
               ~ (typeOf (dat cp) = TextNode /\ typeOf (dat cq) = TextNode)).
  { destruct (Z.eq_dec (typeOf (dat cp)) TextNode), (Z.eq_dec (typeOf (dat cq)) TextNode); tauto. }
  unfold AddSibling. rewrite (bind_getc _ _ _ _ Ep). cbv beta.
  destruct NT as [[T1 T2]|NT].
  - apply text_type in T1 as (s & E1), T2 as (t & E2). rewrite E1, (bind_getc _ _ _ _ Eq). cbv beta. rewrite E2.
    destruct (redata_run h p cp (DText (s ++ t)) Ep) as (h' & R' & D). exists (Ret tt), h'. split; [exact R'|]. split.
    + eapply sib_merge; eassumption.
    + exists F. eapply forest_similar; [|exact FH]. eapply similar_redata; [exact Ep| |exact D]; rewrite E1; exact I.
  - destruct (Z.eq_dec (typeOf (dat cp)) DocumentNode) as [Dc|Dc].
    + apply doc_type in Dc as (v1 & v2 & v3 & v4 & v5 & Dc). rewrite Dc. exists (Fail "can't add sibling to a document"%string), h.
      split; [reflexivity|]. split; [|eauto]. eapply sib_doc; [exact Ep|rewrite Dc; reflexivity].
    + exists (Ret tt), hj. split.
      * destruct (dat cp) eqn:Ed; try exact R; [exfalso; apply Dc; reflexivity|].
        rewrite (bind_getc _ _ _ _ Eq). cbv beta. destruct (dat cq) eqn:Edq; try exact R. exfalso. apply NT. split; reflexivity.
      * split; [|exact Fj]. eapply sib_join; eassumption.
Qed.

(* children of a tree node, as the tree has them *)
Lemma forest_last h F G p cp l : forest h F G -> In p (fnodes F) -> hget h p = Some cp -> l_last (lk cp) = Some l ->
  exists cl, hget h l = Some cl /\ l_par (lk cl) = Some p /\ l_next (lk cl) = None /\ In l (fnodes F).
Proof.
  intros FH Hp Ep El. destruct (forest_sub _ _ _ _ FH Hp) as (a & k & par & pv & nx & L & _ & In1 & _).
  pose proof L as L'. apply linked_eq in L as [(c & M1 & M2 & _) K]. rewrite Ep in M1. injection M1 as <-.
  rewrite M2 in El. cbn [l_last] in El.
  destruct (snoc_cases k) as [->|(k1 & t & ->)]; [discriminate|]. rewrite map_app in El. cbn [map] in El.
  rewrite lasto_snoc in El. injection El as <-. apply linkeds_app in K as [_ [K _]].
  destruct t as [z az kz]. apply linked_eq in K as [(cz & Z1 & Z2 & _) _]. exists cz. cbn [root]. rewrite Z2.
  refine (conj Z1 (conj eq_refl (conj eq_refl _))). apply In1. cbn [nodes]. right. apply in_flat_map.
  exists (N z az kz). split; [apply in_elt|left; reflexivity].
Qed.
Lemma tree_not_attr h F G p : forest h F G -> In p (fnodes F) -> ~ in_attr h p.
Proof.
  intros FH Hp (c & E & H). destruct H as [H|(q & d & H1 & H2 & H3)].
  - destruct (forest_sub _ _ _ _ FH Hp) as (a & k & par & pv & nx & L & _).
    rewrite (node_not_attr _ _ _ _ _ _ _ L (or_introl eq_refl) E) in H. discriminate.
  - destruct (forest_parent _ _ _ _ _ _ FH Hp E H1) as (a & k & par & pv & nx & L & _).
    rewrite (node_not_attr _ _ _ _ _ _ _ L (or_introl eq_refl) H2) in H3. discriminate.
Qed.
Lemma ancestor_kid h q p cp l cl : loose h q -> ~ ancestor h q p -> hget h p = Some cp ->
  hget h l = Some cl -> l_par (lk cl) = Some p -> ~ ancestor h q l.
Proof.
  intros (cq & Eq & _ & Pq & _) NA Ep El Pl A. inversion A as [E|x c r X1 X2 X3]; subst.
  - rewrite Eq in El. injection El as <-. congruence.
  - rewrite El in X1. injection X1 as <-. rewrite Pl in X2. injection X2 as <-. contradiction.
Qed.

Lemma appended_dat h pp z q h' x c : appended h pp z q h' -> hget h x = Some c ->
  exists c', hget h' x = Some c' /\ dat c' = dat c /\ owner c' = owner c.
Proof.
  intros [_ B] E. rewrite B. peq; [rewrite E; cbn; eauto..|]. destruct (optr_eqb _ _); rewrite E; cbn; eauto.
Qed.
Lemma adopted_dat h p q h' x c : adopted h p q h' -> hget h x = Some c ->
  exists c', hget h' x = Some c' /\ dat c' = dat c /\ owner c' = owner c.
Proof. intros [_ B] E. rewrite B. peq; rewrite E; cbn; eauto. Qed.
Lemma grown_dat h p q h' x c : grown h p q h' -> hget h x = Some c ->
  exists c', hget h' x = Some c' /\ dat c' = dat c /\ owner c' = owner c.
Proof. intros (cy & _ & B) E. destruct (l_last (lk cy)); [eapply appended_dat|eapply adopted_dat]; eassumption. Qed.

Lemma addChild_forest h F G p q cp :
  forest h F G -> attachable h p q -> hget h p = Some cp -> no_kids_data (dat cp) = false ->
  exists r h', addChild p q h = (r, h') /\ child_effect h p q r h' /\ exists F', forest h' F' G.
Proof.
  intros FH A Ep Hk. pose proof A as (_ & NAt & Hq & NAn). pose proof Hq as (cq & Eq & Aq & Pq & _).
  pose proof (forest_node _ _ _ _ _ FH Ep NAt) as Hp.
  unfold addChild. rewrite (bind_getc _ _ _ _ Ep). cbv beta.
  destruct (l_last (lk cp)) as [l|] eqn:El.
  - destruct (forest_last _ _ _ _ _ _ FH Hp Ep El) as (cl & Ecl & Pl & Nl & Hl).
    assert (Al : attachable h l q).
    { refine (conj (ex_intro _ cl Ecl) (conj (tree_not_attr _ _ _ _ FH Hl) (conj Hq _))).
      exact (ancestor_kid h q p cp l cl Hq NAn Ep Ecl Pl). }
    destruct (AddSibling_forest _ _ _ _ _ FH Al) as (r & h' & R & Ef & F').
    inversion Ef as [c1 c2 s t h1 E1 E2 D1 D2 Rd Er Eh|c1 e E1 D1 Er Eh|c1 c2 h1 E1 E2 D1 NT J Er Eh]; subst.
    + (* the text grows *)
      rewrite Ecl in E1. injection E1 as <-. rewrite Eq in E2. injection E2 as <-.
      erewrite hbind_ret; [|exact R]. pose proof Rd as [Rn Rg].
      assert (Hlp : l <> p) by (intros ->; rewrite Ep in Ecl; injection Ecl as <-; rewrite D1 in Hk; discriminate).
      assert (Eq' : exists cq', hget h' q = Some cq' /\ typeOf (dat cq') = TextNode).
      { rewrite Rg. destruct (Pos.eqb_spec q l) as [->|]; [rewrite Ecl; cbn; eauto|]. exists cq. split; [exact Eq|rewrite D2; reflexivity]. }
      destruct Eq' as (cq' & Eq' & Tq').
      rewrite (bind_getc _ _ _ _ Eq'). cbv beta.
      erewrite bind_getc; [|rewrite Rg, Pos.eqb_refl, Ecl; reflexivity]. cbv beta. rewrite Tq'. cbn [with_dat dat typeOf].
      change ((TextNode =? TextNode) && (TextNode =? TextNode)) with true. cbv iota.
      unfold setLast. erewrite upd_run.
      2:{ rewrite Rg. destruct (Pos.eqb_spec p l); [congruence|exact Ep]. }
      assert (Rd' : redata h l (DText (s ++ t)) (hset h' p (with_lk (lset_last (Some l)) cp))).
      { split; [exact Rn|]. intro x. rewrite hget_hset, Rg. destruct (Pos.eqb_spec x p) as [->|]; [|reflexivity].
        destruct (Pos.eqb_spec p l); [congruence|]. rewrite Ep. f_equal. unfold with_lk, lset_last. rewrite <- El.
        destruct cp as [[? ? ? ? ?] ? ?]. reflexivity. }
      eexists _, _. split; [reflexivity|]. split.
      * eapply ce_merge; eassumption.
      * exists F. eapply forest_similar; [|exact FH]. eapply similar_redata; [exact Ecl| |exact Rd']; rewrite D1; exact I.
    + rewrite Ecl in E1. injection E1 as <-. exists (Fail e), h'. rewrite (hbind_fail _ _ _ _ _ R). split; [reflexivity|].
      split; [|exact F']. eapply ce_doc; eassumption.
    + rewrite Ecl in E1. injection E1 as <-. rewrite Eq in E2. injection E2 as <-.
      assert (Gr : grown h p q h').
      { destruct J as (c3 & E3 & J). rewrite Ecl in E3. injection E3 as <-. rewrite Pl in J. exact J. }
      destruct (grown_dat _ _ _ _ _ _ Gr Eq) as (cq' & Eq' & Dq' & _).
      destruct (grown_dat _ _ _ _ _ _ Gr Ecl) as (cl' & Ecl' & Dl' & _).
      exists (Ret tt), h'. split.
      { erewrite hbind_ret; [|exact R]. rewrite (bind_getc _ _ _ _ Eq'). cbv beta. rewrite (bind_getc _ _ _ _ Ecl'). cbv beta.
        rewrite Dq', Dl'. destruct (typeOf (dat cq) =? TextNode) eqn:T1, (typeOf (dat cl) =? TextNode) eqn:T2; try reflexivity.
        exfalso. apply NT. apply Z.eqb_eq in T1, T2. auto. }
      split; [|exact F']. eapply ce_grow; try eassumption. intros l' cl2 X1 X2. rewrite El in X1. injection X1 as <-.
      rewrite Ecl in X2. injection X2 as <-. exact NT.
  - assert (Hpq : p <> q) by (intros ->; apply NAn; constructor).
    unfold setFirst, setLast, setPar. erewrite bind_upd; [|exact Ep].
    erewrite bind_upd; [|apply hget_hset_same].
    erewrite upd_run; [|rewrite !hget_hset_other by congruence; exact Eq].
    match goal with |- exists r h', (_, ?X) = _ /\ _ => assert (Gr : grown h p q X) end.
    { exists cp. split; [exact Ep|]. rewrite El. split; [reflexivity|]. intro x. rewrite !hget_hset.
      peq; try congruence; rewrite ?Ep, ?Eq; reflexivity. }
    eexists _, _. split; [reflexivity|]. split.
    + eapply ce_grow; try eassumption. intros l cl X. congruence.
    + destruct (two_groups _ _ _ _ _ FH Hp Hq NAn) as (a & t & b & tq & F' & Pm & Ht & <-).
      eexists. eapply forest_grown; [exact (forest_perm _ _ _ _ Pm FH)|exact Ht| |exact Gr].
      intros c Ec. rewrite Ep in Ec. injection Ec as <-. exact Hk.
Qed.

Lemma AddChild_forest h F G p q :
  forest h F G -> attachable h p q ->
  exists r h', AddChild p q h = (r, h') /\ child_effect h p q r h' /\ exists F', forest h' F' G.
Proof.
  intros FH A. pose proof A as ((cp & Ep) & NAt & (cq & Eq & _) & NAn).
  unfold AddChild. rewrite (bind_getc _ _ _ _ Ep). cbv beta.
  destruct (no_kids_data (dat cp)) eqn:Hk.
  - destruct (dat cp) as [| |s|s| | | | | | | ] eqn:Ed; cbn in Hk; try discriminate.
    + rewrite (bind_getc _ _ _ _ Eq). cbv beta. destruct (Z.eq_dec (typeOf (dat cq)) TextNode) as [T|T].
      * apply text_type in T as (t & Et). rewrite Et.
        destruct (redata_run h p cp (DText (s ++ t)) Ep) as (h' & R' & D). exists (Ret tt), h'. split; [exact R'|]. split.
        -- eapply ce_text; eassumption.
        -- exists F. eapply forest_similar; [|exact FH]. eapply similar_redata; [exact Ep| |exact D]; rewrite Ed; exact I.
      * exists (Fail "ErrInvalidOperation"%string), h. split.
        { destruct (dat cq); try reflexivity. exfalso. apply T. reflexivity. }
        split; [|eauto]. eapply ce_refuse; [exact Ep|exact Eq|rewrite Ed; reflexivity|]. rewrite Ed. cbn [typeOf]. congruence.
    + rewrite (bind_getc _ _ _ _ Eq). cbv beta. destruct (Z.eq_dec (typeOf (dat cq)) CommentNode) as [T|T].
      * assert (exists t, dat cq = DComment t) as (t & Et) by (destruct (dat cq); cbn in T; try discriminate; eauto). rewrite Et.
        destruct (redata_run h p cp (DComment (s ++ t)) Ep) as (h' & R' & D). exists (Ret tt), h'. split; [exact R'|]. split.
        -- eapply ce_comment; eassumption.
        -- exists F. eapply forest_similar; [|exact FH]. eapply similar_redata; [exact Ep| |exact D]; rewrite Ed; exact I.
      * exists (Fail "ErrInvalidOperation"%string), h. split.
        { destruct (dat cq); try reflexivity. exfalso. apply T. reflexivity. }
        split; [|eauto]. eapply ce_refuse; [exact Ep|exact Eq|rewrite Ed; reflexivity|]. rewrite Ed. cbn [typeOf]. congruence.
  - destruct (addChild_forest _ _ _ _ _ _ FH A Ep Hk) as (r & h' & R & X). exists r, h'. split; [|exact X].
    destruct (dat cp); cbn in Hk; try discriminate; exact R.
Qed.

(* ---- a new node attached at once ---- *)
Lemma new_in_attr h F G c p : forest h F G -> live h p -> in_attr (with_new h c) p -> in_attr h p.
Proof.
  intros FH (cp & Ep) (c' & E & H). pose proof (f_ok _ _ _ FH) as Hk.
  assert (Same : forall x cx, hget h x = Some cx -> hget (with_new h c) x = Some cx).
  { intros x cx Ex. rewrite hget_new. destruct (Pos.eqb_spec x (nxt h)) as [->|]; [|exact Ex].
    rewrite (hok_free _ Hk) in Ex. discriminate. }
  rewrite (Same _ _ Ep) in E. injection E as <-. exists cp. split; [exact Ep|].
  destruct H as [H|(q & d & H1 & H2 & H3)]; [left; exact H|right]. exists q, d. refine (conj H1 (conj _ H3)).
  rewrite hget_new in H2. destruct (Pos.eqb_spec q (nxt h)) as [->|]; [|exact H2]. exfalso.
  (* the parent of p is live in h *)
  destruct (forest_live _ _ _ _ _ FH Ep) as [X|[[_ X]|(a & ca & s & X1 & _ & _ & _ & X5 & _)]]; [|congruence|].
  - destruct (forest_parent _ _ _ _ _ _ FH X Ep H1) as (a & k & par & pv & nx & L & _).
    apply linked_eq in L as [(cy & Y & _) _]. rewrite (hok_free _ Hk) in Y. discriminate.
  - rewrite H1 in X1. injection X1 as <-. rewrite (hok_free _ Hk) in X5. discriminate.
Qed.
Lemma ancestor_inv h q p : ancestor h q p -> p = q \/ exists x, parent_of h x = Some q.
Proof.
  induction 1 as [|p c r E P A IH]; [left; reflexivity|]. right. destruct IH as [->|X]; [|exact X].
  exists p. unfold parent_of. rewrite E. exact P.
Qed.
Lemma attach_new h F G o d p : forest h F G -> fresh_data d -> live h p -> ~ in_attr h p ->
  attachable (with_new h {| lk := nolinks; owner := o; dat := d |}) p (nxt h).
Proof.
  intros FH Hd Hl NA. pose proof (forest_new _ _ _ o d FH Hd) as FN. set (h1 := with_new _ _) in *.
  pose proof (f_ok _ _ _ FH) as Hk. destruct Hl as (cp & Ep).
  assert (Hpn : p <> nxt h) by (intros ->; rewrite (hok_free _ Hk) in Ep; discriminate).
  assert (En : hget h1 (nxt h) = Some {| lk := nolinks; owner := o; dat := d |}).
  { unfold h1. rewrite hget_new, Pos.eqb_refl. reflexivity. }
  refine (conj _ (conj _ (conj _ _))).
  - exists cp. unfold h1. rewrite hget_new. destruct (Pos.eqb_spec p (nxt h)); [contradiction|exact Ep].
  - intro X. apply NA. eapply new_in_attr; [exact FH|exists cp; exact Ep|exact X].
  - eexists. split; [exact En|]. cbn. destruct d; cbn in Hd; try contradiction; auto.
  - intro A. apply ancestor_inv in A as [A|(x & A)]; [contradiction|].
    assert (C : children h1 (nxt h) (map root [])).
    { eapply forest_children with (a := []) (par := None) (pv := None) (nx := None); [exact FN|left; reflexivity|].
      pose proof (f_lk _ _ _ FN) as L. apply Forall_cons_iff in L as [L _]. cbn [linkeds map hdo] in L. exact (proj1 L). }
    destruct C as (c & _ & _ & _ & _ & C). apply C in A. destruct A.
Qed.

(* What AddContent may do. *)
Inductive content_effect (h : heap) (p : ptr) (b : str) : outcome herr unit -> heap -> Prop :=
| co_text cp s h' : hget h p = Some cp -> dat cp = DText s -> redata h p (DText (s ++ b)) h' -> content_effect h p b (Ret tt) h'
| co_comment cp s h' : hget h p = Some cp -> dat cp = DComment s -> redata h p (DComment (s ++ b)) h' -> content_effect h p b (Ret tt) h'
| co_child cp r h' : hget h p = Some cp -> no_kids_data (dat cp) = false ->
    child_effect (with_new h {| lk := nolinks; owner := None; dat := DText b |}) p (nxt h) r h' -> content_effect h p b r h'.

Lemma AddContent_forest h F G p b : forest h F G -> live h p -> ~ in_attr h p ->
  exists r h', AddContent p b h = (r, h') /\ content_effect h p b r h' /\ exists F', forest h' F' G.
Proof.
  intros FH Hl NA. pose proof Hl as (cp & Ep). unfold AddContent. rewrite (bind_getc _ _ _ _ Ep). cbv beta.
  destruct (no_kids_data (dat cp)) eqn:Hk.
  - destruct (dat cp) as [| |s|s| | | | | | | ] eqn:Ed; cbn in Hk; try discriminate.
    + destruct (redata_run h p cp (DText (s ++ b)) Ep) as (h' & R' & D). exists (Ret tt), h'. split; [exact R'|]. split.
      * eapply co_text; eassumption.
      * exists F. eapply forest_similar; [|exact FH]. eapply similar_redata; [exact Ep| |exact D]; rewrite Ed; exact I.
    + destruct (redata_run h p cp (DComment (s ++ b)) Ep) as (h' & R' & D). exists (Ret tt), h'. split; [exact R'|]. split.
      * eapply co_comment; eassumption.
      * exists F. eapply forest_similar; [|exact FH]. eapply similar_redata; [exact Ep| |exact D]; rewrite Ed; exact I.
  - pose proof (forest_new _ _ _ None (DText b) FH I) as FN.
    pose proof (attach_new _ _ _ None (DText b) _ FH I Hl NA) as At.
    destruct (AddChild_forest _ _ _ _ _ FN At) as (r & h' & R & Ef & X). exists r, h'. split.
    + destruct (dat cp); cbn in Hk; try discriminate; exact R.
    + split; [|exact X]. eapply co_child; eassumption.
Qed.

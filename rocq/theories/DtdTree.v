(* A document with its internal subset while the tree builder fills it. *)
From Coq Require Import FMapPositive Permutation.
From Verif Require Import Base Utf8 Utf8Proofs Escape Scan Parser Heap Dump TreeBuilder TreeShape TreeOps Forest ForestOps ForestAdd
  ForestAttr History TreeCalls TreeReplace Xml Mirror XmlBuild XmlSteps XmlElem XmlTree DtdProofs DtdHistory.

Definition has (h : heap) (p : ptr) (x : data) : Prop := data_of h p = Some x.
(* a comment, or an instruction below which there is nothing *)
Definition leafy (h : heap) (p : ptr) (x : data) : Prop :=
  data_of h p = Some x /\ match x with DPI _ _ => children h p [] | _ => True end.
Definition decl_data (x : data) : Prop :=
  match x with DEntity _ _ _ _ _ _ | DElemDecl _ _ _ _ | DAttrDecl _ _ _ _ _ _ _ => True | _ => False end.
Definition misc_data (x : data) : Prop := match x with DComment _ | DPI _ _ => True | _ => False end.

(* The document d has comments and instructions l1, then the DTD, then l2; the
   DTD has the name nm and the declarations dd. *)
Record under (d dtd : ptr) (vs en : str) (sa : Z) (nm : str) (h : heap) (t : tables)
    (k1 k2 : list ptr) (l1 l2 : list data) (ps : list ptr) (dd : list data) : Prop := {
  u_wf : wf h;
  u_top : parent_of h d = None;
  u_doc : data_of h d = Some (DDoc vs en sa (Some dtd) None);
  u_kids : children h d (k1 ++ dtd :: k2);
  u_name : data_of h dtd = Some (DDtd nm [] [] t);
  u_own : option_map owner (hget h dtd) = Some (Some d);
  u_sub : children h dtd ps;
  u_decls : Forall2 (has h) ps dd;
  u_front : Forall2 (leafy h) k1 l1;
  u_back : Forall2 (leafy h) k2 l2;
  u_tabs : tabs_ok h t;
  u_elems : forall k p, tget (t_elems t) k = Some p -> In p ps;
  u_attrs : forall k p, tget (t_attrs t) k = Some p -> In p ps;
  u_empty : no_decls t = match dd with [] => true | _ => false end;
  u_kind : Forall decl_data dd;
  u_misc : Forall misc_data (l1 ++ l2) }.

Lemma has_in h ps dd p : Forall2 (has h) ps dd -> In p ps -> exists x, In x dd /\ data_of h p = Some x.
Proof.
  induction 1 as [|a x l m H1 H2 IH]; intros Hi; [destruct Hi|]. destruct Hi as [<-|Hi]; [exists x; split; [left; reflexivity|exact H1]|].
  destruct (IH Hi) as (y & Y1 & Y2). exists y. split; [right; exact Y1|exact Y2].
Qed.
Lemma leafy_in h ps dd p : Forall2 (leafy h) ps dd -> In p ps -> exists x, In x dd /\ data_of h p = Some x.
Proof.
  induction 1 as [|a x l m H1 H2 IH]; intros Hi; [destruct Hi|]. destruct Hi as [<-|Hi]; [exists x; split; [left; reflexivity|exact (proj1 H1)]|].
  destruct (IH Hi) as (y & Y1 & Y2). exists y. split; [right; exact Y1|exact Y2].
Qed.
Lemma forall2_by {A B} (P Q : A -> B -> Prop) l m : Forall2 P l m -> (forall a b, In a l -> In b m -> P a b -> Q a b) -> Forall2 Q l m.
Proof.
  induction 1 as [|a b l m H1 H2 IH]; intros F; constructor; [apply F; cbn; auto|]. apply IH. intros x y Hx Hy. apply F; right; assumption.
Qed.

Lemma kid_in h p cs x : children h p cs -> parent_of h x = Some p -> In x cs.
Proof. intros (c & _ & _ & _ & _ & Hi) Hx. apply Hi, Hx. Qed.

Section U.
Variables (d dtd : ptr) (vs en : str) (sa : Z) (nm : str).
Notation under := (under d dtd vs en sa nm).

Lemma under_neq h t k1 k2 l1 l2 ps dd : under h t k1 k2 l1 l2 ps dd -> d <> dtd.
Proof. intros U Eq. pose proof (u_doc _ _ _ _ _ _ _ _ _ _ _ _ _ _ U). pose proof (u_name _ _ _ _ _ _ _ _ _ _ _ _ _ _ U). subst. congruence. Qed.
Lemma under_free h t k1 k2 l1 l2 ps dd : under h t k1 k2 l1 l2 ps dd -> ~ in_attr h dtd /\ ~ in_attr h d.
Proof.
  intros [W T D K N O S Ds F B Tb Ue Ua Em Ki Mi]. destruct W as (Fo & G & FH). split.
  - eapply node_free; [exact FH|]. eapply dtd_node; eassumption.
  - apply data_of_some in D as (c & Ec & Dc).
    destruct (forest_live _ _ _ _ _ FH Ec) as [X|[[X _]|(a & ca & ss & _ & _ & _ & X & _)]]; [eapply node_free; eassumption|rewrite Dc in X; discriminate..].
Qed.
Lemma under_ok h t k1 k2 l1 l2 ps dd : under h t k1 k2 l1 l2 ps dd -> dtd_ok h dtd t.
Proof.
  intros U. destruct (under_free _ _ _ _ _ _ _ _ U) as [NA _]. destruct U as [W T D K N O S Ds F B Tb Ue Ua Em Ki Mi].
  refine (conj W (conj NA (conj _ (conj Tb _)))).
  - intros x Px. apply (kid_in _ _ _ _ S) in Px. destruct (has_in _ _ _ _ Ds Px) as (y & Y1 & Y2). unfold kind. rewrite Y2. cbn.
    rewrite Forall_forall in Ki. specialize (Ki y Y1). destruct y; try contradiction; discriminate.
  - apply data_of_some in N as (c & Ec & Dc). exists c, nm, [], []. refine (conj Ec (conj Dc _)). rewrite Ec in O. injection O as ->.
    exists vs, en, sa, (Some dtd), None. split; [exact D|]. right. split; [reflexivity|discriminate].
Qed.
(* the nodes below are neither the document nor the DTD *)
Lemma under_kid h t k1 k2 l1 l2 ps dd x : under h t k1 k2 l1 l2 ps dd -> In x (k1 ++ k2 ++ ps) -> x <> d /\ x <> dtd.
Proof.
  intros [W T D K N O S Ds F B Tb Ue Ua Em Ki Mi] Hx.
  assert (X : exists y, data_of h x = Some y /\ (decl_data y \/ misc_data y)).
  { rewrite Forall_forall in Ki, Mi. apply in_app_or in Hx as [Hx|Hx]; [|apply in_app_or in Hx as [Hx|Hx]].
    - destruct (leafy_in _ _ _ _ F Hx) as (y & Y1 & Y2). exists y. split; [exact Y2|right; apply Mi, in_or_app; auto].
    - destruct (leafy_in _ _ _ _ B Hx) as (y & Y1 & Y2). exists y. split; [exact Y2|right; apply Mi, in_or_app; auto].
    - destruct (has_in _ _ _ _ Ds Hx) as (y & Y1 & Y2). exists y. auto. }
  destruct X as (y & Y1 & Y2). split; intros ->; [rewrite D in Y1|rewrite N in Y1]; injection Y1 as <-; destruct Y2 as [[]|[]].
Qed.
Lemma under_level h t k1 k2 l1 l2 ps dd : under h t k1 k2 l1 l2 ps dd -> level h d (k1 ++ dtd :: k2).
Proof.
  intros U. pose proof U as [W T D K N O S Ds F B Tb Ue Ua Em Ki Mi]. constructor; [exact W| |exact K| |].
  - apply data_of_some in D as (c & Ec & Dc). exists c. split; [exact Ec|]. split; [rewrite Dc; exact I|].
    intros q Hq. unfold parent_of in T. rewrite Ec in T. congruence.
  - intros Hd. apply (children_in _ _ _ _ K) in Hd. congruence.
  - intros z Hz. apply lasto_some_in in Hz. apply in_app_or in Hz as [Hz|[<-|Hz]].
    + destruct (leafy_in _ _ _ _ F Hz) as (y & Y1 & Y2). unfold kind. rewrite Y2. cbn.
      rewrite Forall_forall in Mi. specialize (Mi y (in_or_app _ _ _ (or_introl Y1))). destruct y; try contradiction; discriminate.
    + unfold kind. rewrite N. discriminate.
    + destruct (leafy_in _ _ _ _ B Hz) as (y & Y1 & Y2). unfold kind. rewrite Y2. cbn.
      rewrite Forall_forall in Mi. specialize (Mi y (in_or_app _ _ _ (or_intror Y1))). destruct y; try contradiction; discriminate.
Qed.

(* a declaration enters *)
Lemma not_attr_data h x y : data_of h x = Some y -> wf h -> match y with DAttr _ _ | DText _ | DRef _ => False | _ => True end -> ~ in_attr h x.
Proof.
  intros D (F & G & FH) Hy. apply data_of_some in D as (c & Ec & Dc).
  destruct (forest_live _ _ _ _ _ FH Ec) as [X|[[X _]|(a & ca & ss & _ & _ & _ & X & _)]]; [eapply node_free; eassumption|rewrite Dc in X; destruct y; try contradiction; discriminate..].
Qed.
Lemma under_registered h h' t t' k1 k2 l1 l2 ps dd q dq oq : under h t k1 k2 l1 l2 ps dd ->
  registered h h' dtd t' q dq oq -> tabs_ok h' t' -> decl_data dq -> no_decls t' = false ->
  (forall k p, tget (t_elems t') k = Some p -> p = q \/ tget (t_elems t) k = Some p) ->
  (forall k p, tget (t_attrs t') k = Some p -> p = q \/ tget (t_attrs t) k = Some p) ->
  under h' t' k1 k2 l1 l2 (ps ++ [q]) (dd ++ [dq]).
Proof.
  intros U Rg Tb' Dq Em' He Ha. pose proof (under_neq _ _ _ _ _ _ _ _ U) as Ne. pose proof under_kid as Kd.
  destruct (under_free _ _ _ _ _ _ _ _ U) as [_ NAd].
  pose proof U as [W T D K N O S Ds F B Tb Ue Ua Em Ki Mi].
  destruct Rg as (Hq & Dt & Oq & Pq & (n & e & s & t0 & D0 & D1) & Ot & Ch & Fo). rewrite N in D0. injection D0 as <- <- <- <-.
  destruct (Ch ps S) as [Ch1 Ch2].
  assert (Hd : d <> q) by (intros ->; unfold data_of in D; rewrite Hq in D; discriminate).
  assert (Hdtd : dtd <> q) by (intros ->; unfold data_of in N; rewrite Hq in N; discriminate).
  assert (Dat : forall x y, x <> dtd -> data_of h x = Some y -> data_of h' x = Some y).
  { intros x y Hx Hy. destruct (Ot x) as (_ & _ & X); [intros ->; unfold data_of in Hy; rewrite Hq in Hy; discriminate|]. rewrite X by exact Hx. exact Hy. }
  assert (Leaf : forall ks ls, Forall2 (leafy h) ks ls -> (forall x, In x ks -> x <> dtd) -> Forall2 (leafy h') ks ls).
  { intros ks ls Hl Hk. eapply forall2_by; [exact Hl|]. intros a b Ha' Hb [X1 X2]. split; [apply Dat; auto|].
    destruct b; try exact I. apply Ch2; [auto| |exact X2]. eapply not_attr_data; [exact X1|exact W|exact I]. }
  apply Forall_app in Mi as [M1 M2].
  constructor.
  - exact Fo.
  - destruct (Ot d Hd) as (_ & X & _). congruence.
  - apply Dat; assumption.
  - apply Ch2; assumption.
  - exact D1.
  - destruct (Ot dtd Hdtd) as (X & _). congruence.
  - exact Ch1.
  - apply Forall2_app; [|constructor; [exact Dt|constructor]]. eapply forall2_by; [exact Ds|]. intros a b Ha' _ X. apply Dat; [|exact X].
    apply (Kd _ _ _ _ _ _ _ _ a U). apply in_or_app. right. apply in_or_app. auto.
  - apply Leaf; [exact F|]. intros x Hx. apply (Kd _ _ _ _ _ _ _ _ x U). apply in_or_app. auto.
  - apply Leaf; [exact B|]. intros x Hx. apply (Kd _ _ _ _ _ _ _ _ x U). apply in_or_app. right. apply in_or_app. auto.
  - exact Tb'.
  - intros k p Hp. apply in_or_app. destruct (He k p Hp) as [->|X]; [right; left; reflexivity|left; eauto].
  - intros k p Hp. apply in_or_app. destruct (Ha k p Hp) as [->|X]; [right; left; reflexivity|left; eauto].
  - rewrite Em'. destruct dd; reflexivity.
  - apply Forall_app. split; [exact Ki|]. constructor; [exact Dq|constructor].
  - apply Forall_app. auto.
Qed.

(* the tables only name declarations *)
Lemma tabs_frame h h' t : tabs_ok h t -> (forall p x, data_of h p = Some x -> decl_data x -> data_of h' p = Some x) -> tabs_ok h' t.
Proof.
  intros (A1 & A2 & A3 & A4) F. refine (conj _ (conj _ (conj _ _))); intros k p Ep.
  - destruct (A1 k p Ep) as (a & b & ty & ct & X & Y). exists a, b, ty, ct. split; [apply F; [exact X|exact I]|exact Y].
  - destruct (A2 k p Ep) as (el & a & pf & ty & df & v & e & X & Y). exists el, a, pf, ty, df, v, e. split; [apply F; [exact X|exact I]|exact Y].
  - destruct (A3 k p Ep) as (ty & ex & sy & ct & og & X & Y). exists ty, ex, sy, ct, og. split; [apply F; [exact X|exact I]|exact Y].
  - destruct (A4 k p Ep) as (ty & ex & sy & ct & og & X & Y). exists ty, ex, sy, ct, og. split; [apply F; [exact X|exact I]|exact Y].
Qed.
(* the same links, the same children *)
Lemma children_links h h' p cs : wf h' -> children h p cs ->
  (forall c, hget h p = Some c -> exists c', hget h' p = Some c' /\ is_attr (dat c') = false /\ l_first (lk c') = l_first (lk c)) ->
  (forall x c, In x cs -> hget h x = Some c -> exists c', hget h' x = Some c' /\ l_next (lk c') = l_next (lk c)) ->
  children h' p cs.
Proof.
  intros W' (c & Ec & P & _) F N. destruct (F c Ec) as (c' & Ec' & A & Fi). eapply children_by_path; [apply wf_consistent, W'|exact Ec'|exact A|].
  rewrite Fi. eapply path_same; [exact P|exact N].
Qed.
Lemma leafy_links h h' p x : wf h' -> leafy h p x -> misc_data x ->
  (forall c, hget h p = Some c -> exists c', hget h' p = Some c' /\ dat c' = dat c /\ l_first (lk c') = l_first (lk c)) -> leafy h' p x.
Proof.
  intros W' [D C] M F. pose proof D as D0. apply data_of_some in D0 as (c & Ec & Dc). destruct (F c Ec) as (c' & Ec' & Dc' & Fi).
  assert (Dx : dat c' = x) by congruence. split; [unfold data_of; rewrite Ec'; cbn; congruence|].
  destruct x; try exact I. eapply children_links; [exact W'|exact C| |intros ? ? []]. intros c0 E0. rewrite Ec in E0. injection E0 as <-.
  exists c'. refine (conj Ec' (conj _ Fi)). rewrite Dx. reflexivity.
Qed.

(* building under the document leaves the rest alone *)
Record still (h : heap) (t : tables) (k1 k2 : list ptr) (l1 l2 : list data) (ps : list ptr) (dd : list data) : Prop := {
  st_top : parent_of h d = None;
  st_doc : data_of h d = Some (DDoc vs en sa (Some dtd) None);
  st_name : data_of h dtd = Some (DDtd nm [] [] t);
  st_own : option_map owner (hget h dtd) = Some (Some d);
  st_sub : children h dtd ps;
  st_decls : Forall2 (has h) ps dd;
  st_front : Forall2 (leafy h) k1 l1;
  st_back : Forall2 (leafy h) k2 l2;
  st_tabs : tabs_ok h t }.
Lemma under_still h t k1 k2 l1 l2 ps dd : under h t k1 k2 l1 l2 ps dd -> still h t k1 k2 l1 l2 ps dd.
Proof. intros []. constructor; assumption. Qed.
Lemma under_kept h h' t k1 k2 l1 l2 ps dd : under h t k1 k2 l1 l2 ps dd -> kept h d (k1 ++ dtd :: k2) h' -> wf h' ->
  still h' t k1 k2 l1 l2 ps dd.
Proof.
  intros U K W'. pose proof (under_neq _ _ _ _ _ _ _ _ U) as Ne. 
  pose proof U as [W T D Kk N O S Ds F B Tb Ue Ua Em Ki Mi].
  assert (Dat : forall x y, data_of h x = Some y -> data_of h' x = Some y).
  { intros x y Hx. apply data_of_some in Hx as (c & Ec & Dc). destruct (kept_dat _ _ _ _ _ _ K Ec) as (c' & Ec' & Dc' & _).
    unfold data_of. rewrite Ec'. cbn. congruence. }
  assert (Fst : forall x c, x <> d -> hget h x = Some c ->
    exists c', hget h' x = Some c' /\ dat c' = dat c /\ l_first (lk c') = l_first (lk c) /\ owner c' = owner c).
  { intros x c Hx Ec. destruct (optr_dec (lasto (k1 ++ dtd :: k2)) (Some x)) as [L|L].
    - destruct (k_last _ _ _ _ K x c L Hx Ec) as (c' & X1 & X2 & _ & X3 & X4). eauto.
    - exists c. rewrite (k_same _ _ _ _ K x c Ec Hx L). auto. }
  apply Forall_app in Mi as [M1 M2]. rewrite Forall_forall in M1, M2.
  constructor.
  - apply data_of_some in D as (c & Ec & Dc). destruct (kept_dat _ _ _ _ _ _ K Ec) as (c' & Ec' & Dc' & P'). unfold parent_of in *.
    rewrite Ec'. rewrite Ec in T. congruence.
  - apply Dat, D.
  - apply Dat, N.
  - destruct (hget h dtd) as [c|] eqn:Ec; [|discriminate]. destruct (Fst dtd c) as (c' & X & _ & _ & Y); auto. rewrite X. cbn in *. congruence.
  - eapply children_links; [exact W'|exact S| |].
    + intros c Ec. destruct (Fst dtd c) as (c' & X & Y & Z & _); auto. exists c'. refine (conj X (conj _ Z)). rewrite Y.
      unfold data_of in N. rewrite Ec in N. cbn in N. injection N as ->. reflexivity.
    + intros x c Hx Ec. exists c. split; [|reflexivity]. apply (k_same _ _ _ _ K); [exact Ec| |].
      * apply (under_kid _ _ _ _ _ _ _ _ x U). apply in_or_app. right. apply in_or_app. auto.
      * intro L. apply lasto_some_in in L. apply (children_in _ _ _ _ Kk) in L. apply (children_in _ _ _ _ S) in Hx. congruence.
  - eapply forall2_by; [exact Ds|]. intros a b _ _ X. apply Dat, X.
  - eapply forall2_by; [exact F|]. intros a b Ha Hb X. eapply leafy_links; [exact W'|exact X|auto|]. intros c Ec.
    destruct (Fst a c) as (c' & X1 & X2 & X3 & _); eauto. apply (under_kid _ _ _ _ _ _ _ _ a U). apply in_or_app. auto.
  - eapply forall2_by; [exact B|]. intros a b Ha Hb X. eapply leafy_links; [exact W'|exact X|auto|]. intros c Ec.
    destruct (Fst a c) as (c' & X1 & X2 & X3 & _); eauto. apply (under_kid _ _ _ _ _ _ _ _ a U). apply in_or_app. right. apply in_or_app. auto.
  - eapply tabs_frame; [exact Tb|]. intros p x X _. apply Dat, X.
Qed.
Lemma still_under h t k1 k2 l1 l2 ps dd : still h t k1 k2 l1 l2 ps dd -> wf h -> children h d (k1 ++ dtd :: k2) ->
  (forall k p, tget (t_elems t) k = Some p -> In p ps) -> (forall k p, tget (t_attrs t) k = Some p -> In p ps) ->
  no_decls t = match dd with [] => true | _ => false end -> Forall decl_data dd -> Forall misc_data (l1 ++ l2) ->
  under h t k1 k2 l1 l2 ps dd.
Proof. intros []. constructor; assumption. Qed.

Definition in_subset (s : tb) : Prop := tb_doc s = Some d /\ tb_elem s = None.

Lemma under_comment n v s t k1 k2 l1 l2 ps dd tx : in_subset s -> under (tb_heap s) t k1 k2 l1 l2 ps dd ->
  exists h', tb_event n s v (EComment tx) = (with_heap h' s, HNil) /\
    under h' t k1 (k2 ++ [nxt (tb_heap s)]) l1 (l2 ++ [DComment tx]) ps dd.
Proof.
  intros [Sd Se] U. pose proof (under_level _ _ _ _ _ _ _ _ U) as LV.
  assert (C : current s d).
  { split; [congruence|]. rewrite Se. split; [exact Sd|]. unfold kind. rewrite (u_doc _ _ _ _ _ _ _ _ _ _ _ _ _ _ U). reflexivity. }
  destruct (comment_step n v s d (k1 ++ dtd :: k2) tx C LV) as (h' & R & LV' & K & La & _). exists h'. split; [exact R|].
  pose proof (under_kept _ _ _ _ _ _ _ _ _ U K (lv_wf _ _ _ LV')) as St. destruct U as [W T D Kk N O S Ds F B Tb Ue Ua Em Ki Mi].
  apply still_under; try assumption.
  - destruct St as [s1 s2 s3 s4 s5 s6 s7 s8 s9]. constructor; try assumption. apply Forall2_app; [assumption|]. constructor; [|constructor].
    inversion La as [|? ? m x ? ? ? X1 X2 X3 X4]; subst. inversion X3 as [| |p c s0 Ec Dc|]; subst.
    split; [unfold data_of; rewrite Ec; cbn; congruence|exact I].
  - exact (lv_wf _ _ _ LV').
  - pose proof (lv_ch _ _ _ LV') as X. rewrite <- app_assoc in X. exact X.
  - rewrite app_assoc. apply Forall_app. split; [exact Mi|]. constructor; [exact I|constructor].
Qed.

Lemma decl_of_pred h t k1 k2 l1 l2 ps dd : under h t k1 k2 l1 l2 ps dd -> wf h.
Proof. intros []; assumption. Qed.
Lemma put_cases tb k p k' p' : tget (tput tb k p) k' = Some p' -> p' = p \/ tget tb k' = Some p'.
Proof. rewrite tget_put. destruct (str_eqb k k'); [intros X; injection X as <-; left; reflexivity|auto]. Qed.

(* the declarations *)
Lemma the_subset s h t k1 k2 l1 l2 ps dd : in_subset s -> under h t k1 k2 l1 l2 ps dd -> forall err,
  subset (tb_doc s) 1 err h = (Ret (Some dtd), h).
Proof.
  intros [Sd _] U err. unfold subset, deref. rewrite Sd, (hbind_ret _ _ _ d h eq_refl).
  rewrite (hbind_ret _ _ _ _ _ (getDoc_run _ _ _ _ _ _ _ (u_doc _ _ _ _ _ _ _ _ _ _ _ _ _ _ U))). reflexivity.
Qed.
Lemma under_entity n v s t k1 k2 l1 l2 ps dd name typ ct : v_inSubset v = 1 -> in_subset s -> under (tb_heap s) t k1 k2 l1 l2 ps dd -> 1 <= typ <= 5 ->
  exists q h', tb_event n s v (EEntityDecl name typ [] [] ct) = (with_heap h' s, HNil) /\
    under h' (ent_tables typ name q t) k1 k2 l1 l2 (ps ++ [q]) (dd ++ [DEntity name typ [] [] ct []]).
Proof.
  intros V Is U Ht. pose proof (under_ok _ _ _ _ _ _ _ _ U) as Ok.
  destruct (AddEntity_run _ _ _ name typ [] [] ct Ok Ht) as (q & h' & oq & R & Rg & _ & Ok'). exists q, h'. split.
  - unfold tb_event, tb_action, entityDecl. rewrite V. unfold hbind at 1 2. rewrite (the_subset _ _ _ _ _ _ _ _ _ Is U). unfold deref.
    rewrite (hbind_ret _ _ _ dtd _ eq_refl), (hbind_ret _ _ _ _ _ R). reflexivity.
  - eapply under_registered; [exact U|exact Rg|exact (proj1 (proj2 (proj2 (proj2 Ok'))))|exact I| | |].
    + unfold ent_tables, no_decls. destruct (typ <=? 3); cbn [t_ents t_elems t_pents t_attrs]; unfold tput; [reflexivity|].
      destruct (t_ents t), (t_elems t); reflexivity.
    + unfold ent_tables. destruct (typ <=? 3); auto.
    + unfold ent_tables. destruct (typ <=? 3); auto.
Qed.
Lemma under_element n v s t k1 k2 l1 l2 ps dd name prefix local typ ct : v_inSubset v = 1 -> in_subset s -> under (tb_heap s) t k1 k2 l1 l2 ps dd ->
  prefix_local name = (prefix, local) -> content_fits typ ct -> tget (t_elems t) (elem_key local prefix) = None ->
  exists q h', tb_event n s v (EElementDecl name typ ct) = (with_heap h' s, HNil) /\
    under h' (with_elems (tput (t_elems t) (elem_key local prefix) q) t) k1 k2 l1 l2 (ps ++ [q]) (dd ++ [DElemDecl local prefix typ ct]).
Proof.
  intros V Is U PL Ft Tn. pose proof (under_ok _ _ _ _ _ _ _ _ U) as Ok.
  destruct (AddElementDecl_new _ _ _ Ok _ _ _ typ ct PL Ft Tn) as (q & h' & oq & R & Rg & _ & Ok'). exists q, h'. split.
  - unfold tb_event, tb_action, elementDecl. rewrite V. unfold hbind at 1 2. rewrite (the_subset _ _ _ _ _ _ _ _ _ Is U). unfold deref.
    rewrite (hbind_ret _ _ _ dtd _ eq_refl), (hbind_ret _ _ _ _ _ R). reflexivity.
  - eapply under_registered; [exact U|exact Rg|exact (proj1 (proj2 (proj2 (proj2 Ok'))))|exact I| | |auto].
    + unfold no_decls, with_elems. cbn [t_ents t_elems t_pents t_attrs]. unfold tput. destruct (t_ents t); reflexivity.
    + intros k p. apply put_cases.
Qed.
Lemma under_attribute n v s t k1 k2 l1 l2 ps dd el name typ df val : v_inSubset v = 1 -> in_subset s -> under (tb_heap s) t k1 k2 l1 l2 ps dd ->
  prefix_local name = ([], name) -> 1 <= typ <= 10 -> tget (t_attrs t) (attr_key name [] el) = None ->
  exists q h', tb_event n s v (EAttributeDecl el name typ df val []) = (with_heap h' s, HNil) /\
    under h' (with_attrs (tput (t_attrs t) (attr_key name [] el) q) t) k1 k2 l1 l2 (ps ++ [q]) (dd ++ [DAttrDecl el name [] typ df val []]).
Proof.
  intros V Is U PL Ht Tn. pose proof (under_ok _ _ _ _ _ _ _ _ U) as Ok.
  destruct (addAttributeDecl_new _ _ _ Ok el name [] typ df val [] Ht Tn) as (q & h' & oq & R & Rg & _ & Ok'). exists q, h'. split.
  - assert (Nx : str_eqb name (s_ "xml:id") = false).
    { destruct (str_eqb_spec name (s_ "xml:id")) as [->|]; [vm_compute in PL; discriminate|reflexivity]. }
    unfold tb_event, tb_action, attributeDecl. rewrite V, Nx, PL. cbn [andb]. unfold hbind at 1 2. rewrite (the_subset _ _ _ _ _ _ _ _ _ Is U).
    rewrite (hbind_ret _ _ _ _ _ R). reflexivity.
  - eapply under_registered; [exact U|exact Rg|exact (proj1 (proj2 (proj2 (proj2 Ok'))))|exact I| |auto|].
    + unfold no_decls, with_attrs. cbn [t_ents t_elems t_pents t_attrs]. unfold tput. destruct (t_ents t), (t_elems t), (t_pents t); reflexivity.
    + intros k p. apply put_cases.
Qed.

(* an attribute that is made and dropped, and how an entity was written *)
Lemma under_extends h h' t k1 k2 l1 l2 ps dd : under h t k1 k2 l1 l2 ps dd -> extends h h' -> wf h' -> under h' t k1 k2 l1 l2 ps dd.
Proof.
  intros U X W'. pose proof (under_level _ _ _ _ _ _ _ _ U) as LV. pose proof (level_extends _ _ _ _ LV X W') as LV'.
  pose proof (under_kept _ _ _ _ _ _ _ _ _ U (extends_kept _ _ _ _ X) W') as St.
  destruct U. apply still_under; try assumption. exact (lv_ch _ _ _ LV').
Qed.
Lemma under_attr n s t k1 k2 l1 l2 ps dd a rs : under (tb_heap s) t k1 k2 l1 l2 ps dd -> Forall (fun r => valid_rune r = true) rs ->
  (List.length rs < n)%nat -> exists h', tb_createAttr n s a [] (utf8 (ampesc rs)) = (with_heap h' s, Ret tt) /\ under h' t k1 k2 l1 l2 ps dd.
Proof.
  intros U Hv Hn. pose proof (decl_of_pred _ _ _ _ _ _ _ _ U) as W.
  destruct (CreateAttribute_run n (tb_heap s) (tb_doc s) a (utf8 (ampesc rs)) rs) as (x & ks & h' & R & M).
  - apply wf_ok, W.
  - apply runes_amp, amp_valid, Hv.
  - apply ampesc_nil.
  - exact Hn.
  - exists h'. split; [unfold tb_createAttr; rewrite R; reflexivity|]. destruct W as (F & G & FH). eapply under_extends; [exact U| |].
    + split; [|intros y c Ey; rewrite (made_old _ _ _ _ _ _ _ y M); [exact Ey|]; apply (f_ok _ _ _ FH _ _ Ey)].
      destruct M as [-> M]. destruct (utf8 rs); destruct M as (_ & -> & _); lia.
    + eexists _, _. eapply forest_made; eassumption.
Qed.
Lemma under_orig s t k1 k2 l1 l2 ps q dd name typ ct og0 og : under (tb_heap s) t k1 k2 l1 l2 (ps ++ [q]) (dd ++ [DEntity name typ [] [] ct og0]) ->
  exists h', tb_setOrig s (Real {| e_id := Z.pos q; e_name := name; e_type := typ; e_content := ct |}) og = with_heap h' s /\
    under h' t k1 k2 l1 l2 (ps ++ [q]) (dd ++ [DEntity name typ [] [] ct og]).
Proof.
  intros U. pose proof U as [W T D Kk N O Su Ds F B Tb Ue Ua Em Ki Mi].
  assert (Sp : Forall2 (has (tb_heap s)) ps dd /\ has (tb_heap s) q (DEntity name typ [] [] ct og0)).
  { apply Forall2_app_inv_l in Ds as (x & y & A1 & A2 & A3). inversion A2 as [|? z ? ? A4 A5]; subst. inversion A5; subst.
    apply app_inj_tail in A3 as [-> ->]. auto. }
  destruct Sp as [Dp Dq]. pose proof (data_of_some _ _ _ Dq) as (cq & Eq & Cq).
  set (h' := hset (tb_heap s) q (with_dat (DEntity name typ [] [] ct og) cq)). exists h'. split.
  { unfold tb_setOrig. cbn [e_id]. rewrite Eq, Cq. reflexivity. }
  assert (G : forall x, hget h' x = if Pos.eqb x q then Some (with_dat (DEntity name typ [] [] ct og) cq) else hget (tb_heap s) x) by (intro; apply hget_hset).
  assert (Oth : forall x, x <> q -> hget h' x = hget (tb_heap s) x).
  { intros x Hx. rewrite G. apply Pos.eqb_neq in Hx. rewrite Hx. reflexivity. }
  assert (Lk : forall x c, hget (tb_heap s) x = Some c -> exists c', hget h' x = Some c' /\ lk c' = lk c /\ owner c' = owner c /\ (is_attr (dat c) = false -> is_attr (dat c') = false) /\ (x <> q -> c' = c)).
  { intros x c Ec. rewrite G. destruct (Pos.eqb_spec x q) as [->|Hx]; [|exists c; auto 8]. rewrite Eq in Ec. injection Ec as <-.
    eexists. split; [reflexivity|]. repeat split. intro X. congruence. }
  assert (W' : wf h').
  { destruct W as (Fo & Gr & FH). exists Fo, Gr. eapply forest_similar; [|exact FH]. split; [reflexivity|]. intro x. rewrite G.
    destruct (Pos.eqb_spec x q) as [->|Hx].
    - rewrite Eq. split; [reflexivity|]. rewrite Cq. cbn. auto.
    - destruct (hget (tb_heap s) x); [|exact I]. split; [reflexivity|apply same_kind_refl]. }
  destruct (under_kid _ _ _ _ _ _ _ _ q U) as [Hqd Hqt]; [apply in_or_app; right; apply in_or_app; right; apply in_elt|].
  assert (Ch : forall p cs, (forall c, hget (tb_heap s) p = Some c -> is_attr (dat c) = false) -> children (tb_heap s) p cs -> children h' p cs).
  { intros p cs Ha Hc. eapply children_links; [exact W'|exact Hc| |].
    - intros c Ec. destruct (Lk p c Ec) as (c' & X1 & X2 & _ & X3 & _). exists c'. rewrite X2. auto.
    - intros x c _ Ec. destruct (Lk x c Ec) as (c' & X1 & X2 & _). exists c'. rewrite X2. auto. }
  assert (Dt : forall x, x <> q -> data_of h' x = data_of (tb_heap s) x) by (intros x Hx; unfold data_of; rewrite (Oth x Hx); reflexivity).
  assert (Nd : ~ In q ps).
  { destruct Su as (c & _ & _ & _ & Nd & _). apply NoDup_remove_2 in Nd. rewrite app_nil_r in Nd. exact Nd. }
  assert (Lf : forall ks ls, Forall2 (leafy (tb_heap s)) ks ls -> (forall x, In x ks -> x <> q) -> Forall2 (leafy h') ks ls).
  { intros ks ls Hl Hk. eapply forall2_by; [exact Hl|]. intros a b Ha Hb [X1 X2]. split; [rewrite Dt; auto|]. destruct b; try exact I.
    apply Ch; [|exact X2]. intros c Ec. unfold data_of in X1. rewrite Ec in X1. cbn in X1. injection X1 as ->. reflexivity. }
  assert (Hne : forall x y, data_of (tb_heap s) x = Some y -> misc_data y -> x <> q).
  { intros x y X M ->. rewrite Dq in X. injection X as <-. exact M. }
  apply Forall_app in Mi as [M1 M2]. rewrite Forall_forall in M1, M2.
  constructor.
  - exact W'.
  - unfold parent_of. rewrite Oth by congruence. exact T.
  - rewrite Dt by congruence. exact D.
  - apply Ch; [|exact Kk]. intros c Ec. unfold data_of in D. rewrite Ec in D. cbn in D. injection D as ->. reflexivity.
  - rewrite Dt by congruence. exact N.
  - rewrite Oth by congruence. exact O.
  - apply Ch; [|exact Su]. intros c Ec. unfold data_of in N. rewrite Ec in N. cbn in N. injection N as ->. reflexivity.
  - apply Forall2_app.
    + eapply forall2_by; [exact Dp|]. intros a b Ha _ X. unfold has. rewrite Dt; [exact X|]. intros ->. contradiction.
    + constructor; [|constructor]. unfold has, data_of. rewrite G, Pos.eqb_refl. reflexivity.
  - apply Lf; [exact F|]. intros x Hx. destruct (leafy_in _ _ _ _ F Hx) as (y & Y1 & Y2). eapply Hne; eauto.
  - apply Lf; [exact B|]. intros x Hx. destruct (leafy_in _ _ _ _ B Hx) as (y & Y1 & Y2). eapply Hne; eauto.
  - destruct Tb as (A1 & A2 & A3 & A4).
    assert (Dq' : data_of h' q = Some (DEntity name typ [] [] ct og)) by (unfold data_of; rewrite G, Pos.eqb_refl; reflexivity).
    refine (conj _ (conj _ (conj _ _))); intros k p Ep.
    + destruct (A1 k p Ep) as (a & b & ty & c0 & X & Y). exists a, b, ty, c0. split; [|exact Y]. rewrite Dt; [exact X|].
      intros ->. unfold has in Dq. congruence.
    + destruct (A2 k p Ep) as (el & a & pf & ty & df & v0 & e & X & Y). exists el, a, pf, ty, df, v0, e. split; [|exact Y]. rewrite Dt; [exact X|].
      intros ->. unfold has in Dq. congruence.
    + destruct (A3 k p Ep) as (ty & ex & sy & c0 & o0 & X & Y). destruct (Pos.eq_dec p q) as [->|Hp].
      * unfold has in Dq. rewrite Dq in X. injection X as -> -> <- <- <- <-. eauto 8.
      * exists ty, ex, sy, c0, o0. rewrite Dt by exact Hp. auto.
    + destruct (A4 k p Ep) as (ty & ex & sy & c0 & o0 & X & Y). destruct (Pos.eq_dec p q) as [->|Hp].
      * unfold has in Dq. rewrite Dq in X. injection X as -> -> <- <- <- <-. eauto 8.
      * exists ty, ex, sy, c0, o0. rewrite Dt by exact Hp. auto.
  - exact Ue.
  - exact Ua.
  - rewrite Em. destruct dd; reflexivity.
  - apply Forall_app in Ki as [Ki _]. apply Forall_app. split; [exact Ki|]. constructor; [exact I|constructor].
  - apply Forall_app. rewrite !Forall_forall. auto.
Qed.
End U.

Lemma parent_live h x p : wf h -> parent_of h x = Some p -> hget h p <> None.
Proof.
  intros W P. unfold parent_of in P. destruct (hget h x) as [c|] eqn:E; [|discriminate].
  destruct (wf_consistent _ W _ _ E) as [_ G]. inversion G as [? c0 E0 P0|? c0 q E0 P0 G0]; subst; rewrite E in E0; injection E0 as <-; [congruence|].
  rewrite P in P0. injection P0 as <-. inversion G0; congruence.
Qed.
Lemma no_children h p c : wf h -> hget h p = Some c -> is_attr (dat c) = false -> (forall x, parent_of h x <> Some p) -> children h p [].
Proof.
  intros W E A N. destruct (wf_consistent _ W _ _ E) as [X _]. destruct (X A) as (cs & C). destruct cs as [|y cs]; [exact C|].
  exfalso. exact (N y (children_in _ _ _ y C (or_introl eq_refl))).
Qed.
Lemma under_start n v s d vs en sa cs l1 name : in_subset d s -> wf (tb_heap s) -> parent_of (tb_heap s) d = None ->
  data_of (tb_heap s) d = Some (DDoc vs en sa None None) -> children (tb_heap s) d cs -> Forall2 (leafy (tb_heap s)) cs l1 -> Forall misc_data l1 ->
  exists dtd h', tb_event n s v (EInternalSubset name [] []) = (with_heap h' s, HNil) /\
    under d dtd vs en sa name h' notables cs [] l1 [] [] [].
Proof.
  intros [Sd Se] W T D Ch F Mi. pose proof W as (Fo & G & FH).
  destruct (CreateInternalSubset_run (tb_heap s) Fo G d vs en sa cs name [] [] FH D Ch) as (dtd & h' & R & Hn & Ok & Dt & Dd & Ch' & Oth & Pd & Ow).
  { intros x Hx. destruct (leafy_in _ _ _ _ F Hx) as (y & Y1 & Y2). unfold kind. rewrite Y2. rewrite Forall_forall in Mi. specialize (Mi y Y1).
    destruct y; try contradiction; discriminate. }
  assert (W' : wf h') by apply Ok.
  assert (Ndd : d <> dtd) by (intros ->; unfold data_of in D; rewrite Hn in D; discriminate).
  assert (Pt : parent_of h' dtd = Some d) by (apply (children_in _ _ _ _ Ch'), in_elt).
  assert (Par : forall x p, p <> d -> parent_of h' x = Some p -> parent_of (tb_heap s) x = Some p).
  { intros x p Hp Px. destruct (Pos.eq_dec x dtd) as [->|X1]; [congruence|]. destruct (Pos.eq_dec x d) as [->|X2]; [congruence|].
    destruct (Oth x X2 X1) as [_ X]. congruence. }
  exists dtd, h'. split.
  { unfold tb_event, tb_action, internalSubset, deref. rewrite Sd. unfold hbind at 1. rewrite (hbind_ret _ _ _ d _ eq_refl).
    rewrite (hbind_ret _ _ _ _ _ (getDoc_run _ _ _ _ _ _ _ D)). rewrite (hbind_ret _ _ _ tt _ eq_refl), (hbind_ret _ _ _ _ _ R).
    unfold with_heap. rewrite Sd, Se. reflexivity. }
  constructor.
  - exact W'.
  - congruence.
  - exact Dd.
  - exact Ch'.
  - exact Dt.
  - exact Ow.
  - pose proof (data_of_some _ _ _ Dt) as (c & Ec & Dc). eapply no_children; [exact W'|exact Ec|rewrite Dc; reflexivity|].
    intros x Px. apply Par in Px; [|congruence]. apply (parent_live _ _ _ W) in Px. contradiction.
  - constructor.
  - eapply forall2_by; [exact F|]. intros a b Ha Hb [X1 X2].
    assert (Na : a <> d /\ a <> dtd).
    { rewrite Forall_forall in Mi. specialize (Mi b Hb). split; intros ->; [rewrite D in X1; injection X1 as <-; exact Mi|].
      unfold data_of in X1. rewrite Hn in X1. discriminate. }
    destruct Na as [Na1 Na2]. destruct (Oth a Na1 Na2) as [Da _]. split; [congruence|]. destruct b; try exact I.
    assert (Da' : data_of h' a = Some (DPI target pidata)) by congruence.
    pose proof (data_of_some _ _ _ Da') as (c & Ec & Dc). eapply no_children; [exact W'|exact Ec|rewrite Dc; reflexivity|].
    intros x Px. apply Par in Px; [|exact Na1]. apply (kid_in _ _ _ _ X2) in Px. exact Px.
  - constructor.
  - exact (proj1 (proj2 (proj2 (proj2 Ok)))).
  - intros k p X. discriminate.
  - intros k p X. discriminate.
  - reflexivity.
  - constructor.
  - rewrite app_nil_r. exact Mi.
Qed.

(* what the tree answers about its entities *)
Section Ask.
Variables (d dtd : ptr) (vs en : str) (sa : Z) (nm : str).
Lemma ask_general s v t n p ty a b c og : tb_doc s = Some d -> data_of (tb_heap s) d = Some (DDoc vs en sa (Some dtd) None) ->
  data_of (tb_heap s) dtd = Some (DDtd nm [] [] t) -> tget (t_ents t) n = Some p -> data_of (tb_heap s) p = Some (DEntity n ty a b c og) ->
  tb_getEntity s v n = (s, Answer (Some (Real {| e_id := Z.pos p; e_name := n; e_type := ty; e_content := c |})) false).
Proof.
  intros Sd D N Tg Dp. unfold tb_getEntity, GetEntity, deref. rewrite Sd, (hbind_ret _ _ _ d _ eq_refl), (hbind_ret _ _ _ _ _ (getDoc_run _ _ _ _ _ _ _ D)).
  cbv beta iota. unfold LookupEntity. apply data_of_some in N as (cd & Ec & Dc). rewrite (hbind_ret _ _ _ _ _ (getDtd_run _ _ _ _ _ _ _ Ec Dc)).
  unfold hret. cbn [snd]. rewrite Tg. apply data_of_some in Dp as (cp & Ep & Dp). unfold read_entity. rewrite Ep, Dp. reflexivity.
Qed.
Lemma ask_parameter s v t n p ty a b c og : tb_doc s = Some d -> data_of (tb_heap s) d = Some (DDoc vs en sa (Some dtd) None) ->
  data_of (tb_heap s) dtd = Some (DDtd nm [] [] t) -> tget (t_pents t) n = Some p -> data_of (tb_heap s) p = Some (DEntity n ty a b c og) ->
  tb_getPEntity s v n = (s, Answer (Some (Real {| e_id := Z.pos p; e_name := n; e_type := ty; e_content := c |})) false).
Proof.
  intros Sd D N Tg Dp. unfold tb_getPEntity, GetParameterEntity, deref. rewrite Sd, (hbind_ret _ _ _ d _ eq_refl), (hbind_ret _ _ _ _ _ (getDoc_run _ _ _ _ _ _ _ D)).
  cbv beta iota. unfold LookupParameterEntity. apply data_of_some in N as (cd & Ec & Dc). rewrite (hbind_ret _ _ _ _ _ (getDtd_run _ _ _ _ _ _ _ Ec Dc)).
  unfold hret. cbn [snd]. rewrite Tg. apply data_of_some in Dp as (cp & Ep & Dp). unfold read_entity. rewrite Ep, Dp. reflexivity.
Qed.
End Ask.

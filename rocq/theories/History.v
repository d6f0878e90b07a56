(* Histories of tree-building calls. *)
From Coq Require Import FMapPositive Permutation.
From Verif Require Import Base Utf8 Utf8Proofs XmlSpec Escape Scan Heap TreeShape TreeOps Forest ForestOps ForestAdd ForestAttr.

(* ---- SetAttribute ---- *)
Inductive set_effect (h : heap) (e : ptr) (name text : str) : outcome herr unit -> heap -> Prop :=
| se_add o A k par pv nx a ks h1 h' :
    linked h par pv nx (N e A k) -> made h o name text a ks h1 -> attr_added h1 e (map fst A) a h' ->
    (forall x, In x (map fst A) -> ~ attr_named h name x) -> set_effect h e name text (Ret tt) h'
| se_dup o A k par pv nx a ks x h' :
    linked h par pv nx (N e A k) -> made h o name text a ks h' ->
    In x (map fst A) -> attr_named h name x -> set_effect h e name text (Fail "ErrDuplicateAttribute"%string) h'.

Lemma attr_named_old h o name0 text a ks h' name x c : hok h -> made h o name0 text a ks h' ->
  hget h x = Some c -> attr_named h' name x <-> attr_named h name x.
Proof.
  intros Hk M E. unfold attr_named. rewrite (made_old _ _ _ _ _ _ _ x M (Hk _ _ E)). reflexivity.
Qed.

Lemma SetAttribute_forest n h F G e ce name value s :
  forest h F G -> hget h e = Some ce -> typeOf (dat ce) = ElementNode ->
  decodes (runes_of value) s -> (value = [] <-> s = []) -> (List.length s < n)%nat ->
  exists r h', SetAttribute n e name value h = (r, h') /\ set_effect h e name (utf8 s) r h' /\
               exists F' G', forest h' F' G'.
Proof.
  intros FH Ee Te Er Ev Ln. pose proof (f_ok _ _ _ FH) as Hk.
  assert (Hel : exists nm ns defs props, dat ce = DElem nm ns defs props).
  { destruct (dat ce); cbn in Te; try discriminate. repeat eexists. }
  destruct Hel as (nm & ns & defs & props & De).
  assert (He : In e (fnodes F)).
  { destruct (forest_live _ _ _ _ _ FH Ee) as [X|[[X _]|(a & ca & t & _ & _ & _ & X & _)]]; [exact X|..];
      rewrite De in X; discriminate. }
  unfold SetAttribute. rewrite (bind_getc _ _ _ _ Ee). cbv beta.
  destruct (CreateAttribute_run n h (owner ce) name value s Hk Er Ev Ln) as (a & ks & h1 & R1 & M).
  rewrite (hbind_ret _ _ _ _ _ R1). cbv beta.
  assert (Ee1 : hget h1 e = Some ce) by (rewrite (made_old _ _ _ _ _ _ _ e M (Hk _ _ Ee)); exact Ee).
  rewrite (bind_getc _ _ _ _ Ee1). cbv beta. rewrite De.
  destruct (fnodes_split _ _ He) as (g1 & t & g2 & F' & Pm & Ht).
  pose proof (forest_perm _ _ _ _ Pm FH) as FH'.
  destruct (nodes_sub _ _ Ht) as (A & k & S).
  pose proof (f_lk _ _ _ FH') as L. apply Forall_cons_iff in L as [Lg _].
  destruct (linkeds_in _ _ _ _ _ _ Lg (in_elt t g1 g2)) as (pv0 & nx0 & Lt).
  destruct (linked_sub _ _ _ S _ _ _ Lt) as (par & pv & nx & Le).
  pose proof Le as Le'. apply linked_eq in Le' as [(c' & L1 & L2 & L3) _]. rewrite Ee in L1. injection L1 as <-.
  rewrite De in L3. cbn [props_ok] in L3. destruct L3 as [Ep Va].
  pose proof (forest_made _ _ _ _ _ _ _ _ _ FH' M) as FM.
  assert (TE : forall c, hget h1 e = Some c -> typeOf (dat c) = ElementNode).
  { intros c Ec. rewrite Ee1 in Ec. injection Ec as <-. exact Te. }
  destruct (snoc_cases A) as [->|(A1 & [l kl] & EA)].
  - cbn [map hd_error] in Ep. subst props.
    assert (Ad : exists h', setData e (DElem nm ns defs (Some a)) h1 = (Ret tt, h') /\ attr_added h1 e [] a h').
    { eexists. split; [unfold setData; erewrite upd_run; [reflexivity|exact Ee1]|]. split; [reflexivity|]. cbn [lasto].
      exists ce, nm, ns, defs. refine (conj Ee1 (conj De _)). intro x. apply hget_hset. }
    destruct Ad as (h' & R & Ad). exists (Ret tt), h'. split; [exact R|]. split.
    + eapply se_add; [exact Le|exact M|exact Ad|]. intros x [].
    + eexists _, _. eapply forest_addatt; [exact FM|exact S|exact TE|exact Ad].
  - assert (Ehd : props = hd_error (map fst A)) by exact Ep.
    assert (Hne : exists p0, props = Some p0).
    { rewrite Ehd, EA. rewrite map_app. destruct (map fst A1); cbn; eauto. }
    destruct Hne as (p0 & Ep0). rewrite Ep0.
    assert (Old : forall x, In x (map fst A) -> exists c, hget h x = Some c /\ hget h1 x = Some c).
    { intros x Hx. destruct (achain_attr _ _ _ _ Va Hx) as (c & nm' & df & E & _). exists c. split; [exact E|].
      rewrite (made_old _ _ _ _ _ _ _ x M (Hk _ _ E)). exact E. }
    assert (Va1 : achain h1 None A).
    { eapply achain_frame; [exact Va|]. intros x Hx. eapply made_old; [exact M|].
      destruct (achain_in _ _ _ _ Va Hx) as (c & E & _). exact (Hk _ _ E). }
    assert (P1 : path h1 (Some p0) (map fst A)).
    { rewrite <- Ep0, Ehd. eapply achain_path, Va1. }
    assert (NdA : NoDup (map fst A)).
    { assert (NdA : NoDup (attptrs A)).
      { pose proof (f_nd _ _ _ FH') as Nd. apply nodup_app_l in Nd. rewrite fptrs_cons in Nd. apply nodup_app_l in Nd.
        rewrite flat_map_app in Nd. apply nodup_app_r in Nd. cbn [flat_map] in Nd. apply nodup_app_l in Nd.
        clear - S Nd. remember (N e A k) as s eqn:E. induction S as [t|p a k' t s Hk S IH].
        - subst t. cbn [ptrs] in Nd. apply NoDup_cons_iff in Nd as [_ Nd]. eapply nodup_app_l; exact Nd.
        - apply IH; [exact E|]. eapply nodup_kid; eassumption. }
      clear - NdA. induction A as [|[x kx] A IH]; [constructor|].
      change (attptrs ((x, kx) :: A)) with ((x :: kx) ++ attptrs A) in NdA. cbn [map fst]. constructor.
      - intro X. apply in_map_iff in X as ([y ky] & E & X). cbn in E. subst y.
        apply (nodup_app_disj _ _ x NdA); [left; reflexivity|]. apply in_flat_map. exists (x, ky). split; [exact X|left; reflexivity].
      - apply IH. eapply nodup_app_r; exact NdA. }
    destruct (lastAttr_run h1 name (map fst A) (size h1) p0 P1) as [[(x & Hx & X) R]|[X (z & Z & R)]].
    + intros x Hx. exact (achain_attr _ _ _ _ Va1 Hx).
    + pose proof (path_size _ _ _ (f_ok _ _ _ FM) P1 NdA). lia.
    + exists (Fail "ErrDuplicateAttribute"%string), h1. split; [erewrite hbind_fail; [reflexivity|exact R]|]. split.
      * eapply se_dup; [exact Le|exact M|exact Hx|]. destruct (Old x Hx) as (c & E & _).
        apply (attr_named_old _ _ _ _ _ _ _ name x c Hk M E). exact X.
      * eexists _, _. exact FM.
    + assert (Ez : z = l) by (rewrite EA, map_app in Z; cbn [map fst] in Z; rewrite lasto_snoc in Z; congruence). subst z.
      assert (Hl : In l (map fst A)) by (rewrite EA, map_app; apply in_or_app; right; left; reflexivity).
      destruct (Old l Hl) as (cl & El & El1).
      assert (Hla : l <> a).
      { intros ->. apply Hk in El. destruct M as [-> _]. lia. }
      assert (Ea1 : exists ca, hget h1 a = Some ca).
      { pose proof (made_chain _ _ _ _ _ _ _ M) as V. cbn [achain] in V. destruct V as [(c & E & _) _]. eauto. }
      destruct Ea1 as (ca & Ea1).
      erewrite hbind_ret; [|exact R].
      assert (Ad : exists h', (setNext l (Some a) ;; setPrev a (Some l)) h1 = (Ret tt, h') /\ attr_added h1 e (map fst A) a h').
      { unfold setNext, setPrev. erewrite bind_upd; [|exact El1].
        erewrite upd_run; [|rewrite hget_hset_other by congruence; exact Ea1].
        eexists. split; [reflexivity|]. split; [reflexivity|]. rewrite Z. intro x. rewrite !hget_hset.
        peq; try congruence; rewrite ?Ea1, ?El1; reflexivity. }
      destruct Ad as (h' & R' & Ad). exists (Ret tt), h'. split; [exact R'|]. split.
      * eapply se_add; [exact Le|exact M|exact Ad|]. intros x Hx Y. apply X. exists x. split; [exact Hx|].
        destruct (Old x Hx) as (c & E & _). apply (attr_named_old _ _ _ _ _ _ _ name x c Hk M E). exact Y.
      * eexists _, _. eapply forest_addatt; [exact FM|exact S|exact TE|exact Ad].
Qed.

(* ---- histories ---- *)

(* The calls.  ONew: any of the Create... functions and NewDocument, with the
   owner it gives; OSet: SetAttribute. *)
Inductive op :=
| ONew (o : option ptr) (d : data)
| OChild (p q : ptr)
| OSibling (p q : ptr)
| OContent (p : ptr) (b : str)
| OSet (e : ptr) (name : str) (value : list Z).
(* When a call is allowed: the arguments are existing nodes, an attached node
   is loose and not above its new parent, and attributes and their values are
   not touched directly.  The value of OSet is a list of runes. *)
Definition allowed (h : heap) (o : op) : Prop :=
  match o with
  | ONew _ d => fresh_data d
  | OChild p q | OSibling p q => attachable h p q
  | OContent p _ => live h p /\ ~ in_attr h p
  | OSet e _ value => (exists c, hget h e = Some c /\ typeOf (dat c) = ElementNode) /\
                      Forall (fun r => valid_rune r = true) value /\ exists text, decodes value text
  end.
Definition call (o : op) : HM unit :=
  match o with
  | ONew o d => _ <- alloc o d ;; hret tt
  | OChild p q => AddChild p q
  | OSibling p q => AddSibling p q
  | OContent p b => AddContent p b
  | OSet e name value => SetAttribute (S (List.length value)) e name (utf8 value)
  end.
(* the heaps that allowed calls lead to *)
Inductive reach : heap -> Prop :=
| reach0 : reach empty_heap
| reachS h o r h' : reach h -> allowed h o -> call o h = (r, h') -> reach h'.

Lemma utf8_nil s : utf8 s = [] <-> s = [].
Proof. destruct s as [|r t]; [tauto|]. split; [intro E; exfalso; exact (utf8_nonempty _ _ E)|discriminate]. Qed.

Lemma call_forest h F G o : forest h F G -> allowed h o ->
  exists r h', call o h = (r, h') /\ r <> Pan /\ r <> Oof /\ exists F' G', forest h' F' G'.
Proof.
  intros FH A. destruct o as [o d|p q|p q|p b|e name value]; cbn [allowed call] in *.
  - pose proof (forest_new _ _ _ o d FH A) as FN. eexists _, _. split; [reflexivity|].
    refine (conj _ (conj _ _)); [discriminate|discriminate|]. eexists _, _. exact FN.
  - destruct (AddChild_forest _ _ _ _ _ FH A) as (r & h' & R & Ef & F' & X). exists r, h'. split; [exact R|].
    refine (conj _ (conj _ _)); [destruct Ef; discriminate|destruct Ef; discriminate|eauto].
  - destruct (AddSibling_forest _ _ _ _ _ FH A) as (r & h' & R & Ef & F' & X). exists r, h'. split; [exact R|].
    refine (conj _ (conj _ _)); [destruct Ef; discriminate|destruct Ef; discriminate|eauto].
  - destruct A as [Hl NA]. destruct (AddContent_forest _ _ _ _ b FH Hl NA) as (r & h' & R & Ef & F' & X). exists r, h'. split; [exact R|].
    refine (conj _ (conj _ _)); [..|eauto]; (destruct Ef as [| |cp r h' E1 E2 Ef]; [discriminate|discriminate|destruct Ef; discriminate]).
  - destruct A as ((c & Ec & Tc) & Hv & text & Dt).
    destruct (SetAttribute_forest (S (List.length value)) h F G e c name (utf8 value) text FH Ec Tc) as (r & h' & R & Ef & X).
    + rewrite runes_of_utf8 by exact Hv. exact Dt.
    + rewrite utf8_nil. apply decodes_nil, Dt.
    + apply decodes_length in Dt. lia.
    + exists r, h'. split; [exact R|]. refine (conj _ (conj _ X)); destruct Ef; discriminate.
Qed.
(* all the lemmas about single calls need of the history *)
Definition sound (h : heap) : Prop := exists F G, forest h F G.
Lemma reach_forest h : reach h -> sound h.
Proof.
  induction 1 as [|h o r h' R IH A C]; [exists [], []; apply forest_empty|].
  destruct IH as (F & G & FH). destruct (call_forest _ _ _ _ FH A) as (r' & h2 & C' & _ & _ & X).
  rewrite C in C'. injection C' as -> ->. exact X.
Qed.
Lemma reach_consistent h : reach h -> consistent h.
Proof. intro R. destruct (reach_forest _ R) as (F & G & FH). exact (forest_consistent _ _ _ FH). Qed.
Lemma reach_total h o : reach h -> allowed h o -> exists r h', call o h = (r, h') /\ r <> Pan /\ r <> Oof.
Proof.
  intros R A. destruct (reach_forest _ R) as (F & G & FH). destruct (call_forest _ _ _ _ FH A) as (r & h' & C & X & Y & _).
  exists r, h'. auto.
Qed.

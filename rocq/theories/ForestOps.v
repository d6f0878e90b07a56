(* The calls that build a tree keep the heap a forest. *)
From Coq Require Import FMapPositive Permutation.
From Verif Require Import Base Utf8 Escape Scan Heap TreeShape TreeOps Forest.

(* ---- a new node ---- *)
Definition fresh_data (d : data) : Prop :=
  match d with DAttr _ _ => False | DElem _ _ _ props => props = None | _ => True end.

Lemma ga_frame h h' G : Forall (fun a => achain h None [a]) G -> agree h h' (attptrs G) ->
  Forall (fun a => achain h' None [a]) G.
Proof.
  intros A B. rewrite Forall_forall in *. intros [a ks] Ha. eapply achain_frame; [apply A, Ha|].
  eapply agree_incl; [exact B|]. intros x Hx. apply in_flat_map. exists (a, ks). split; [exact Ha|].
  cbn [attptrs flat_map] in Hx. rewrite app_nil_r in Hx. exact Hx.
Qed.
Lemma groups_frame h h' F : Forall (linkeds h None None None) F -> agree h h' (fptrs F) ->
  Forall (linkeds h' None None None) F.
Proof.
  intros A B. rewrite Forall_forall in *. intros g Hg. eapply linkeds_frame; [apply A, Hg|].
  eapply agree_incl; [exact B|]. intros x Hx. apply in_flat_map. exists g. auto.
Qed.
Lemma forest_ptr_live h F G x : forest h F G -> In x (fptrs F ++ attptrs G) -> hget h x <> None.
Proof.
  intros FH H. apply in_app_or in H as [H|H].
  - apply in_flat_map in H as (g & Hg & H). apply in_flat_map in H as (t & Ht & H).
    pose proof (f_lk _ _ _ FH) as L. rewrite Forall_forall in L.
    destruct (linkeds_in _ _ _ _ _ _ (L g Hg) Ht) as (pv & nx & Lt).
    destruct (ptrs_cases _ _ _ _ _ _ Lt H) as [X|(p & props & nm & ns & defs & a & cp & X1 & X2 & X3 & X4)].
    + destruct (find_sub _ _ _ _ _ _ Lt X) as (a & k & par' & pv' & nx' & Ls & _).
      apply linked_eq in Ls as [(c & M & _) _]. congruence.
    + destruct (achain_in _ _ _ _ X3 X4) as (c & Y & _). congruence.
  - apply in_flat_map in H as ([a ks] & Ha & H). pose proof (f_ga _ _ _ FH) as Ga. rewrite Forall_forall in Ga.
    assert (H' : In x (attptrs [(a, ks)])) by (cbn [attptrs flat_map]; rewrite app_nil_r; exact H).
    destruct (achain_in _ _ _ _ (Ga _ Ha) H') as (c' & Y1 & _). congruence.
Qed.
Lemma forest_fresh h F G : forest h F G -> ~ In (nxt h) (fptrs F ++ attptrs G).
Proof. intros FH H. apply (forest_ptr_live _ _ _ _ FH H), hok_free, (f_ok _ _ _ FH). Qed.
Lemma new_agree h F G c : forest h F G -> agree h (with_new h c) (fptrs F ++ attptrs G).
Proof.
  intros FH x Hx. rewrite hget_new. destruct (Pos.eqb_spec x (nxt h)) as [->|]; [|reflexivity].
  exfalso. exact (forest_fresh _ _ _ FH Hx).
Qed.
Lemma forest_new h F G o d : forest h F G -> fresh_data d ->
  forest (with_new h {| lk := nolinks; owner := o; dat := d |}) ([N (nxt h) [] []] :: F) G.
Proof.
  intros FH Hd. pose proof (new_agree _ _ _ {| lk := nolinks; owner := o; dat := d |} FH) as A.
  apply agree_app in A as [A1 A2]. pose proof FH as [H1 H2 H3 H4 H5]. constructor.
  - apply hok_new, H1.
  - constructor; [|eapply groups_frame; eassumption]. cbn [linkeds map hdo]. split; [|exact I].
    apply linked_eq. split; [|exact I]. eexists. split; [rewrite hget_new, Pos.eqb_refl; reflexivity|]. split; [reflexivity|].
    cbn [dat]. destruct d; cbn [fresh_data props_ok] in *; auto. split; [exact Hd|exact I].
  - eapply ga_frame; eassumption.
  - rewrite fptrs_cons. cbn [flat_map ptrs attptrs app]. constructor; [exact (forest_fresh _ _ _ FH)|exact H4].
  - intros p Hp. rewrite hget_new in Hp. rewrite fptrs_cons. cbn [flat_map ptrs attptrs app].
    destruct (Pos.eqb_spec p (nxt h)) as [e|Hne]; [left; congruence|right; apply H5, Hp].
Qed.

(* ---- the same tree with other data ---- *)
Definition same_kind (d d' : data) : Prop :=
  match d, d' with
  | DElem _ _ _ p, DElem _ _ _ p' => p = p'
  | DElem _ _ _ _, _ | _, DElem _ _ _ _ => False
  | DText _, DText _ => True
  | DText _, _ | _, DText _ => False
  | DComment _, DComment _ => True
  | DComment _, _ | _, DComment _ => False
  | DAttr _ _, DAttr _ _ => True
  | DAttr _ _, _ | _, DAttr _ _ => False
  | _, _ => True
  end.
Lemma same_kind_refl d : same_kind d d.
Proof. destruct d; cbn; auto. Qed.
Definition similar (h h' : heap) : Prop :=
  nxt h' = nxt h /\
  forall x, match hget h x, hget h' x with
            | None, None => True
            | Some c, Some c' => lk c' = lk c /\ same_kind (dat c) (dat c')
            | _, _ => False
            end.
Lemma similar_get h h' x c : similar h h' -> hget h x = Some c ->
  exists c', hget h' x = Some c' /\ lk c' = lk c /\ same_kind (dat c) (dat c').
Proof. intros [_ S] E. specialize (S x). rewrite E in S. destruct (hget h' x); [eauto|contradiction]. Qed.
Lemma similar_back h h' x c' : similar h h' -> hget h' x = Some c' ->
  exists c, hget h x = Some c /\ lk c' = lk c /\ same_kind (dat c) (dat c').
Proof. intros [_ S] E. specialize (S x). rewrite E in S. destruct (hget h x); [eauto|contradiction]. Qed.
Lemma similar_refl h : similar h h.
Proof. split; [reflexivity|]. intro x. destruct (hget h x); [split; [reflexivity|apply same_kind_refl]|exact I]. Qed.
Lemma similar_redata h p d h' c : hget h p = Some c -> same_kind (dat c) d -> redata h p d h' -> similar h h'.
Proof.
  intros E S [R1 R2]. split; [exact R1|]. intro x. rewrite R2. destruct (Pos.eqb_spec x p) as [->|].
  - rewrite E. cbn. auto.
  - destruct (hget h x); [split; [reflexivity|apply same_kind_refl]|exact I].
Qed.
Lemma vchain_similar h h' a ks : similar h h' -> forall prev, vchain h a prev ks -> vchain h' a prev ks.
Proof.
  intro S. induction ks as [|k r IH]; intros prev V; [exact I|]. cbn [vchain] in *.
  destruct V as [(c & V1 & V2 & s & V3) V4]. split; [|auto].
  destruct (similar_get _ _ _ _ S V1) as (c' & E1 & E2 & E3). exists c'. refine (conj E1 (conj _ _)); [congruence|].
  rewrite V3 in E3. destruct (dat c'); try contradiction. eauto.
Qed.
Lemma achain_similar h h' l : similar h h' -> forall prev, achain h prev l -> achain h' prev l.
Proof.
  intro S. induction l as [|[a ks] r IH]; intros prev V; [exact I|]. cbn [achain] in *.
  destruct V as [(c & V1 & V2 & nm & df & V3) [V4 V5]]. split; [|split; [eapply vchain_similar; eassumption|auto]].
  destruct (similar_get _ _ _ _ S V1) as (c' & E1 & E2 & E3). exists c'. refine (conj E1 (conj _ _)); [congruence|].
  rewrite V3 in E3. destruct (dat c'); try contradiction. eauto.
Qed.
Lemma linked_similar h h' : similar h h' -> forall t par prev next, linked h par prev next t -> linked h' par prev next t.
Proof.
  intros S t. induction t as [p a k IH] using ltree_ind'. intros par prev next L.
  apply linked_eq in L as [(c & L1 & L2 & L3) L4].
  destruct (similar_get _ _ _ _ S L1) as (c' & E1 & E2 & E3). apply linked_eq. split.
  - exists c'. refine (conj E1 (conj _ _)); [congruence|].
    destruct (dat c), (dat c'); cbn [props_ok same_kind] in *; try contradiction; try exact L3.
    destruct L3 as [L3 L5]. split; [congruence|eapply achain_similar; eassumption].
  - revert L4. apply linkeds_map. rewrite Forall_forall in IH. intros t Ht pv nx. apply IH, Ht.
Qed.
Lemma linkeds_similar h h' par prev next l : similar h h' -> linkeds h par prev next l -> linkeds h' par prev next l.
Proof. intro S. apply linkeds_map. intros t _ pv nx. apply linked_similar, S. Qed.
Lemma forest_similar h h' F G : similar h h' -> forest h F G -> forest h' F G.
Proof.
  intros S [H1 H2 H3 H4 H5]. constructor.
  - intros p c E. destruct (similar_back _ _ _ _ S E) as (c0 & E0 & _). destruct S as [-> _]. exact (H1 _ _ E0).
  - rewrite Forall_forall in *. intros g Hg. eapply linkeds_similar; [exact S|]. apply H2, Hg.
  - rewrite Forall_forall in *. intros a Ha. eapply achain_similar; [exact S|]. apply H3, Ha.
  - exact H4.
  - intros p Hp. apply H5. destruct (hget h' p) as [c'|] eqn:E; [|contradiction].
    destruct (similar_back _ _ _ _ S E) as (c0 & E0 & _). congruence.
Qed.

(* ---- appending ---- *)
Lemma grown_frame h h' y q t par prev next :
  linked h par prev next t -> In y (nodes t) -> grown h y q h' ->
  forall z, ~ In z (ptrs t) -> z <> q -> hget h' z = hget h z.
Proof.
  intros L Hy (cy & G1 & G2) z Z1 Z2.
  destruct (find_sub _ _ _ _ _ _ L Hy) as (ay & ky & py & pvy & nxy & Ly & Iy & _).
  apply linked_eq in Ly as [(c' & M1 & M2 & _) _].
  rewrite M1 in G1. injection G1 as <-. rewrite M2 in G2. cbn [l_last] in G2.
  assert (Zy : z <> y) by (intros ->; apply Z1, Iy; left; reflexivity).
  destruct (snoc_cases ky) as [->|(kb & tz & ->)].
  - cbn [map lasto] in G2. destruct G2 as [_ B]. rewrite B. peq; try contradiction; reflexivity.
  - rewrite map_app in G2. cbn [map] in G2. rewrite lasto_snoc in G2. destruct G2 as [_ B]. rewrite B.
    destruct (Pos.eqb_spec z q); [contradiction|].
    destruct (Pos.eqb_spec z (root tz)) as [->|].
    + exfalso. apply Z1, Iy. cbn [ptrs]. right. apply in_or_app. right. rewrite flat_map_app.
      apply in_or_app; right. cbn [flat_map]. rewrite app_nil_r. apply in_root_ptrs.
    + cbn [optr_eqb]. peq; [contradiction|reflexivity].
Qed.
Lemma grown_live h y q h' x : grown h y q h' -> hget h' x <> None -> hget h x <> None.
Proof.
  intros (cy & G1 & G2). destruct (l_last (lk cy)) as [z|].
  - destruct G2 as [_ B]. rewrite B. peq; [destruct (hget h q); cbn; congruence|destruct (hget h z); cbn; congruence|].
    destruct (optr_eqb _ _); [destruct (hget h x); cbn; congruence|auto].
  - destruct G2 as [_ B]. rewrite B. peq; [destruct (hget h q); cbn; congruence|destruct (hget h y); cbn; congruence|auto].
Qed.

Lemma nodup_in_app {A} (a b c : list A) x : NoDup (a ++ b ++ c) -> In x b -> ~ In x a /\ ~ In x c.
Proof.
  intros H Hx. split; intro E.
  - apply (nodup_app_disj _ _ x H E). apply in_or_app; tauto.
  - apply nodup_app_r in H. exact (nodup_app_disj _ _ x H Hx E).
Qed.

Lemma forest_grown h h' a t b tq F G p :
  forest h ((a ++ t :: b) :: [tq] :: F) G -> In p (nodes t) -> holds_kids h p -> grown h p (root tq) h' ->
  forest h' ((a ++ addk p tq t :: b) :: F) G.
Proof.
  intros [H1 H2 H3 H4 H5] Hp Hk Gr.
  apply Forall_cons_iff in H2 as [L1 H2]. apply Forall_cons_iff in H2 as [L2 H2]. cbn [linkeds map hdo] in L2.
  destruct L2 as [L2 _]. apply linkeds_app in L1 as [La [Lt Lb]].
  pose proof (grown_frame _ _ _ _ _ _ _ _ Lt Hp Gr) as Fr.
  unfold fptrs in H4. cbn [flat_map] in H4. rewrite app_nil_r, flat_map_app in H4. cbn [flat_map] in H4.
  rewrite <- !app_assoc in H4. fold (fptrs F) in H4.
  (* the order of the pieces: a, t, b, tq, F, G *)
  assert (Hdis : forall z, In z (flat_map ptrs a) \/ In z (flat_map ptrs b) \/ In z (fptrs F) \/ In z (attptrs G) ->
                 ~ In z (ptrs t) /\ z <> root tq).
  { intros z Hz.
    assert (Hq : z = root tq -> In z (ptrs tq)) by (intros ->; apply in_root_ptrs).
    destruct Hz as [Hz|Hz].
    - split; intro E; apply (nodup_app_disj _ _ z H4 Hz); rewrite !in_app_iff; tauto.
    - apply nodup_app_r in H4. split; intro E.
      + apply (nodup_app_disj _ _ z H4 E). rewrite !in_app_iff. tauto.
      + apply nodup_app_r in H4. apply Hq in E. destruct Hz as [Hz|Hz].
        * apply (nodup_app_disj _ _ z H4 Hz). rewrite !in_app_iff. tauto.
        * apply nodup_app_r in H4. apply (nodup_app_disj _ _ z H4 E). rewrite !in_app_iff. tauto. }
  assert (Pt : Permutation (ptrs (addk p tq t)) (ptrs t ++ ptrs tq)).
  { apply ptrs_addk; [|exact Hp]. apply nodup_app_r, nodup_app_l in H4. exact H4. }
  assert (PP : Permutation (fptrs ((a ++ t :: b) :: [tq] :: F) ++ attptrs G)
                           (fptrs ((a ++ addk p tq t :: b) :: F) ++ attptrs G)).
  { apply Permutation_app_tail. rewrite !fptrs_cons. rewrite !flat_map_app. cbn [flat_map]. rewrite app_nil_r.
    rewrite Pt. rewrite <- !app_assoc. apply Permutation_app_head, Permutation_app_head.
    rewrite !app_assoc. apply Permutation_app_tail, Permutation_app_comm. }
  constructor.
  - eapply hok_grown; eassumption.
  - constructor.
    + apply linkeds_app. cbn [map hdo linkeds] in *. rewrite root_addk. refine (conj _ (conj _ _)).
      * eapply linkeds_frame; [exact La|]. intros z Hz. apply Fr; apply Hdis; tauto.
      * apply linked_addk with (h := h); try assumption.
        apply nodup_app_r in H4. clear - H4. revert H4.
        generalize (ptrs t) (flat_map ptrs b) (ptrs tq) (fptrs F ++ attptrs G). intros A B C D Hn.
        induction A as [|z A IHA]; cbn in *.
        -- apply nodup_app_r, nodup_app_l in Hn. exact Hn.
        -- apply NoDup_cons_iff in Hn as [X1 X2]. constructor; [|auto]. intro X. apply X1.
           rewrite !in_app_iff in *. tauto.
      * eapply linkeds_frame; [exact Lb|]. intros z Hz. apply Fr; apply Hdis; tauto.
    + eapply groups_frame; [exact H2|]. intros z Hz. apply Fr; apply Hdis; tauto.
  - eapply ga_frame; [exact H3|]. intros z Hz. apply Fr; apply Hdis; tauto.
  - eapply Permutation_NoDup; [exact PP|]. unfold fptrs. cbn [flat_map]. rewrite app_nil_r, flat_map_app. cbn [flat_map].
    rewrite <- !app_assoc. exact H4.
  - intros x Hx. eapply Permutation_in; [exact PP|]. apply H5. eapply grown_live; eassumption.
Qed.

Lemma appended_live h pp z q h' x : appended h pp z q h' -> hget h' x <> None -> hget h x <> None.
Proof.
  intros [_ B]. rewrite B. peq; [destruct (hget h q); cbn; congruence|destruct (hget h z); cbn; congruence|].
  destruct (optr_eqb _ _); [destruct (hget h x); cbn; congruence|auto].
Qed.
Lemma forest_appended h h' g tz tq F G :
  forest h ((g ++ [tz]) :: [tq] :: F) G -> appended h None (root tz) (root tq) h' ->
  forest h' (((g ++ [tz]) ++ [tq]) :: F) G.
Proof.
  intros [H1 H2 H3 H4 H5] Ap. pose proof Ap as [_ B].
  apply Forall_cons_iff in H2 as [L1 H2]. apply Forall_cons_iff in H2 as [L2 H2]. cbn [linkeds map hdo] in L2.
  destruct L2 as [L2 _].
  assert (PP : fptrs ((g ++ [tz]) :: [tq] :: F) ++ attptrs G = fptrs (((g ++ [tz]) ++ [tq]) :: F) ++ attptrs G).
  { rewrite !fptrs_cons. rewrite !flat_map_app. cbn [flat_map]. rewrite !app_nil_r, !app_assoc. reflexivity. }
  unfold fptrs in H4. cbn [flat_map] in H4. rewrite app_nil_r in H4. fold (fptrs F) in H4. rewrite <- !app_assoc in H4.
  assert (Hz : In (root tz) (flat_map ptrs (g ++ [tz]))).
  { rewrite flat_map_app. apply in_or_app; right. cbn [flat_map]. rewrite app_nil_r. apply in_root_ptrs. }
  assert (Out : forall x, In x (fptrs F) \/ In x (attptrs G) -> hget h' x = hget h x).
  { intros x Hx. rewrite B. peq; [exfalso|exfalso|reflexivity].
    - apply nodup_app_r in H4. apply (nodup_app_disj _ _ (root tq) H4); [apply in_root_ptrs|]. rewrite !in_app_iff; tauto.
    - apply (nodup_app_disj _ _ (root tz) H4 Hz). rewrite !in_app_iff; tauto. }
  constructor.
  - eapply hok_appended; eassumption.
  - constructor.
    + eapply linkeds_appended; try eassumption; [|discriminate].
      clear - H4. rewrite !app_assoc in H4. apply nodup_app_l, nodup_app_l in H4. exact H4.
    + eapply groups_frame; [exact H2|]. intros x Hx. apply Out. tauto.
  - eapply ga_frame; [exact H3|]. intros x Hx. apply Out. tauto.
  - rewrite <- PP. unfold fptrs. cbn [flat_map]. rewrite app_nil_r, <- !app_assoc. exact H4.
  - intros x Hx. rewrite <- PP. apply H5. eapply appended_live; eassumption.
Qed.

(* ---- who can be attached where ---- *)

(* q has no parent and no neighbours, and is not an attribute *)
Definition loose (h : heap) (q : ptr) : Prop :=
  exists c, hget h q = Some c /\ is_attr (dat c) = false /\
    l_par (lk c) = None /\ l_prev (lk c) = None /\ l_next (lk c) = None.
Definition attachable (h : heap) (p q : ptr) : Prop :=
  live h p /\ ~ in_attr h p /\ loose h q /\ ~ ancestor h q p.

Lemma in_attr_dec h x c : hget h x = Some c -> is_attr (dat c) = false -> l_par (lk c) = None -> ~ in_attr h x.
Proof.
  intros E A P (c' & E' & H). rewrite E in E'. injection E' as <-. destruct H as [H|(q & d & H & _)]; congruence.
Qed.
Lemma loose_group h F G q : forest h F G -> loose h q -> exists tq F', Permutation F ([tq] :: F') /\ root tq = q.
Proof.
  intros FH (c & E & A & P & Pv & Nx).
  pose proof (forest_node _ _ _ _ _ FH E (in_attr_dec _ _ _ E A P)) as Hq.
  destruct (fnodes_split _ _ Hq) as (a & t & b & F' & Pm & Ht).
  pose proof (forest_perm _ _ _ _ Pm FH) as FH'. pose proof (f_lk _ _ _ FH') as L. apply Forall_cons_iff in L as [L _].
  apply linkeds_app in L as [La [Lt Lb]].
  destruct (node_cases _ _ _ _ _ _ Lt Ht) as [->|(y & a' & k' & pv & nx & par' & c' & _ & _ & _ & X4 & X5)].
  2:{ rewrite E in X4. injection X4 as <-. congruence. }
  destruct t as [pt at' kt]. cbn [root] in *. apply linked_eq in Lt as [(c' & M1 & M2 & _) _].
  rewrite E in M1. injection M1 as <-. rewrite M2 in Pv, Nx. cbn [l_prev l_next] in Pv, Nx.
  assert (a = []) as ->.
  { destruct (snoc_cases a) as [->|(r & x & ->)]; [reflexivity|]. exfalso. rewrite map_app in Pv. cbn [map] in Pv.
    unfold lsto in Pv. rewrite lasto_snoc in Pv. discriminate. }
  assert (b = []) as -> by (destruct b; [reflexivity|discriminate]).
  exists (N pt at' kt), F'. split; [exact Pm|reflexivity].
Qed.
Lemma two_groups h F G p q : forest h F G -> In p (fnodes F) -> loose h q -> ~ ancestor h q p ->
  exists a t b tq F', Permutation F ((a ++ t :: b) :: [tq] :: F') /\ In p (nodes t) /\ root tq = q.
Proof.
  intros FH Hp Hq NA. destruct (loose_group _ _ _ _ FH Hq) as (tq & F1 & Pm & <-).
  pose proof (forest_perm _ _ _ _ Pm FH) as FH'. pose proof (f_lk _ _ _ FH') as L. apply Forall_cons_iff in L as [L _].
  cbn [linkeds map hdo] in L. destruct L as [L _].
  assert (Hp' : In p (fnodes F1)).
  { assert (X : In p (fnodes ([tq] :: F1))).
    { unfold fnodes in *. eapply Permutation_in; [apply Permutation_flat_map, Pm|exact Hp]. }
    unfold fnodes in X. cbn [flat_map] in X. rewrite app_nil_r in X. apply in_app_or in X as [X|X]; [|exact X].
    exfalso. apply NA. eapply nodes_ancestor; eassumption. }
  destruct (fnodes_split _ _ Hp') as (a & t & b & F2 & Pm2 & Ht). exists a, t, b, tq, F2. refine (conj _ (conj Ht eq_refl)).
  rewrite Pm, Pm2. apply perm_swap.
Qed.

(* ---- running the calls ---- *)

(* what AddSibling does to the links when nothing is merged *)
Definition joined (h : heap) (p q : ptr) (h' : heap) : Prop :=
  exists cp, hget h p = Some cp /\
    match l_par (lk cp) with
    | Some y => grown h y q h'
    | None => exists g z, path h (Some p) (g ++ [z]) /\ appended h None z q h'
    end.

Lemma nodup_map_root_tail a t b : NoDup (flat_map ptrs (a ++ t :: b)) -> NoDup (map root (t :: b)).
Proof. intro H. apply nodup_roots. rewrite flat_map_app in H. eapply nodup_app_r; exact H. Qed.

Lemma addSibling_forest h F G p q :
  forest h F G -> attachable h p q ->
  exists h', addSibling p q h = (Ret tt, h') /\ joined h p q h' /\ exists F', forest h' F' G.
Proof.
  intros FH ((cp & Ep) & NAt & Hq & NAn).
  pose proof (forest_node _ _ _ _ _ FH Ep NAt) as Hp.
  destruct (two_groups _ _ _ _ _ FH Hp Hq NAn) as (a & t & b & tq & F' & Pm & Ht & Eq).
  pose proof (forest_perm _ _ _ _ Pm FH) as FH'. pose proof (f_lk _ _ _ FH') as L.
  apply Forall_cons_iff in L as [Lg _]. pose proof (forest_nodup _ _ _ FH') as Nd.
  rewrite fptrs_cons in Nd. pose proof (nodup_app_l _ _ Nd) as Ndg.
  destruct Hq as (cq & Eqq & Aq & Pq & Pvq & Nxq).
  assert (Hgq : ~ In q (flat_map ptrs (a ++ t :: b))).
  { intro X. apply (nodup_app_disj _ _ q Nd X). unfold fptrs. cbn [flat_map]. rewrite app_nil_r. apply in_or_app; left.
    rewrite <- Eq. apply in_root_ptrs. }
  destruct (linkeds_in _ _ _ _ _ _ Lg (in_elt t a b)) as (pv & nx & Lt).
  destruct (node_cases _ _ _ _ _ _ Lt Ht) as [->|(y & ay & ky & pvy & nxy & pary & cy & Ly & Iy & Hky & X4 & X5)].
  - (* among the top nodes *)
    assert (Epar : l_par (lk cp) = None).
    { destruct t as [pt at' kt]. apply linked_eq in Lt as [(c & M1 & M2 & _) _]. cbn [root] in Ep. rewrite Ep in M1.
      injection M1 as <-. rewrite M2. reflexivity. }
    assert (P : path h (Some (root t)) (map root (t :: b))).
    { apply linkeds_app in Lg as [_ Lg]. apply linkeds_path in Lg. exact Lg. }
    destruct (snoc_cases (t :: b)) as [X|(g & tz & Eg)]; [discriminate|].
    assert (Hz : exists pz, linked h None pz None tz).
    { assert (Lg' : linkeds h None None None (a ++ g ++ [tz])) by (rewrite <- Eg; exact Lg).
      apply linkeds_app in Lg' as [_ Lg']. apply linkeds_app in Lg' as [_ [Lg' _]]. eexists. exact Lg'. }
    destruct Hz as (pz & Lz).
    assert (Hzin : In (root tz) (flat_map ptrs (a ++ t :: b))).
    { rewrite Eg, !flat_map_app. cbn [flat_map]. rewrite app_nil_r, !in_app_iff. right; right. apply in_root_ptrs. }
    pose proof Lz as Lz'. destruct tz as [z az kz]. apply linked_eq in Lz' as [(cz & Z1 & Z2 & _) _]. cbn [root] in *.
    destruct (addSibling_run h (root t) q (map root (t :: b)) z cz cq) as (h' & R & Ap).
    + exact (f_ok _ _ _ FH).
    + exact P.
    + eapply nodup_map_root_tail; exact Ndg.
    + rewrite Eg, map_app. cbn [map root]. apply lasto_snoc.
    + exact Z1.
    + exact Eqq.
    + intros ->. exact (Hgq Hzin).
    + rewrite Z2. discriminate.
    + rewrite Z2. discriminate.
    + rewrite Z2. discriminate.
    + rewrite Z2 in Ap. cbn [l_par] in Ap. exists h'. split; [exact R|]. split.
      * exists cp. split; [exact Ep|]. rewrite Epar. exists (map root g), z. split; [|exact Ap].
        rewrite Eg, map_app in P. exact P.
      * eexists. eapply forest_appended with (g := a ++ g) (tz := N z az kz) (tq := tq).
        -- rewrite <- app_assoc, <- Eg. exact FH'.
        -- cbn [root]. rewrite Eq. exact Ap.
  - (* among the children of y *)
    rewrite Ep in X4. injection X4 as <-.
    apply in_map_iff in Hky as (tp & <- & Htp). apply in_split in Htp as (k1 & k2 & ->).
    assert (Hy : In y (nodes t)) by (apply Iy; left; reflexivity).
    pose proof Ly as Ly'. apply linked_eq in Ly' as [(cy & Y1 & Y2 & Y3) Ky].
    assert (P : path h (Some (root tp)) (map root (tp :: k2))).
    { pose proof Ky as K. apply linkeds_app in K as [_ K]. apply linkeds_path in K. exact K. }
    destruct (snoc_cases (tp :: k2)) as [X|(g & tz & Eg)]; [discriminate|].
    assert (Hz : exists pz, linked h (Some y) pz None tz).
    { assert (Lg' : linkeds h (Some y) None None (k1 ++ g ++ [tz])) by (rewrite <- Eg; exact Ky).
      apply linkeds_app in Lg' as [_ Lg']. apply linkeds_app in Lg' as [_ [Lg' _]]. eexists. exact Lg'. }
    destruct Hz as (pz & Lz). pose proof Lz as Lz'. destruct tz as [z az kz].
    apply linked_eq in Lz' as [(cz & Z1 & Z2 & _) _]. cbn [root] in *.
    assert (Elast : lasto (map root (k1 ++ tp :: k2)) = Some z).
    { rewrite Eg, app_assoc, map_app. cbn [map root]. apply lasto_snoc. }
    assert (Nk : NoDup (map root (k1 ++ tp :: k2))).
    { assert (Hyf : In y (fnodes ((a ++ t :: b) :: [tq] :: F'))).
      { unfold fnodes. cbn [flat_map]. apply in_or_app; left. apply in_flat_map. exists t. split; [apply in_elt|exact Hy]. }
      destruct (forest_children _ _ _ _ _ _ _ _ _ FH' Hyf Ly) as (c' & _ & _ & _ & N' & _). exact N'. }
    destruct (addSibling_run h (root tp) q (map root (tp :: k2)) z cz cq) as (h' & R & Ap).
    + exact (f_ok _ _ _ FH).
    + exact P.
    + rewrite map_app in Nk. eapply nodup_app_r; exact Nk.
    + rewrite Eg, map_app. cbn [map root]. apply lasto_snoc.
    + exact Z1.
    + exact Eqq.
    + intros ->. rewrite Eqq in Z1. injection Z1 as <-. rewrite Z2 in Pq. discriminate.
    + rewrite Z2. cbn [l_par]. intro E. injection E as ->. apply NAn. econstructor; [exact Ep|exact X5|constructor].
    + rewrite Z2. cbn [l_par]. intro E. injection E as <-. rewrite Z1 in Y1. injection Y1 as <-.
      assert (Hyt : linked h (Some y) pz None (N y az kz)) by exact Lz.
      (* y would be its own child: it is the root of its own kid *)
      assert (Hyf : In y (fnodes ((a ++ t :: b) :: [tq] :: F'))).
      { unfold fnodes. cbn [flat_map]. apply in_or_app; left. apply in_flat_map. exists t. split; [apply in_elt|exact Hy]. }
      pose proof (forest_consistent _ _ _ FH' y cz Z1) as [_ Gr].
      clear - Gr Z1 Z2. induction Gr as [p c E P|p c r E P Gr IH].
      * rewrite E in Z1. injection Z1 as <-. rewrite Z2 in P. discriminate.
      * rewrite E in Z1. injection Z1 as <-. rewrite Z2 in P. cbn in P. injection P as <-. exact (IH E Z2).
    + rewrite Z2. cbn [l_par]. intros pp E. injection E as <-. congruence.
    + rewrite Z2 in Ap. cbn [l_par] in Ap. exists h'.
      assert (Gr : grown h y q h') by (exists cy; split; [exact Y1|]; rewrite Y2; cbn [l_last]; rewrite Elast; exact Ap).
      split; [exact R|]. split.
      * exists cp. split; [exact Ep|]. rewrite X5. exact Gr.
      * eexists. eapply forest_grown; [exact FH'|exact Hy| |rewrite Eq; exact Gr].
        intros c Ec. rewrite Y1 in Ec. injection Ec as <-. destruct (dat cy); cbn [props_ok no_kids_data] in *; try reflexivity;
          destruct Y3 as [_ Y3]; destruct k1; discriminate.
Qed.

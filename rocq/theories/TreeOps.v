(* What the tree operations of Heap.v do to the cells, and why trees stay
   trees. *)
From Coq Require Import FMapPositive Permutation.
From Verif Require Import Base Utf8 Escape Scan Heap TreeShape.

(* ---- running the monad ---- *)
Lemma hbind_ret {A B} (m : HM A) (f : A -> HM B) h a h' : m h = (Ret a, h') -> hbind m f h = f a h'.
Proof. intro E. unfold hbind. rewrite E. reflexivity. Qed.
Lemma hbind_fail {A B} (m : HM A) (f : A -> HM B) h e h' : m h = (Fail e, h') -> hbind m f h = (Fail e, h').
Proof. intro E. unfold hbind. rewrite E. reflexivity. Qed.
Lemma hbind_pan {A B} (m : HM A) (f : A -> HM B) h h' : m h = (Pan, h') -> hbind m f h = (Pan, h').
Proof. intro E. unfold hbind. rewrite E. reflexivity. Qed.
Lemma getc_run h p c : hget h p = Some c -> getc p h = (Ret c, h).
Proof. intro E. unfold getc. rewrite E. reflexivity. Qed.
Lemma upd_run h p c f : hget h p = Some c -> upd f p h = (Ret tt, hset h p (f c)).
Proof. intro E. unfold upd. rewrite (hbind_ret _ _ _ _ _ (getc_run _ _ _ E)). reflexivity. Qed.
Lemma bind_getc {B} h p c (f : cell -> HM B) : hget h p = Some c -> hbind (getc p) f h = f c h.
Proof. intro E. apply hbind_ret, getc_run, E. Qed.
Lemma bind_upd {B} h p c g (f : unit -> HM B) :
  hget h p = Some c -> hbind (upd g p) f h = f tt (hset h p (g c)).
Proof. intro E. apply hbind_ret, upd_run, E. Qed.
Lemma hignore_ret m h h' : m h = (Ret tt, h') -> hignore m h = (Ret tt, h').
Proof. intro E. unfold hignore. rewrite E. reflexivity. Qed.

Lemma alloc_run o d h :
  alloc o d h = (Ret (nxt h), {| cells := PositiveMap.add (nxt h) {| lk := nolinks; owner := o; dat := d |} (cells h);
                                 nxt := Pos.succ (nxt h) |}).
Proof. reflexivity. Qed.
Definition with_new (h : heap) (c : cell) : heap :=
  {| cells := PositiveMap.add (nxt h) c (cells h); nxt := Pos.succ (nxt h) |}.
Lemma hget_new h c q : hget (with_new h c) q = if Pos.eqb q (nxt h) then Some c else hget h q.
Proof.
  unfold hget, with_new. cbn [cells]. destruct (Pos.eqb_spec q (nxt h)) as [->|Hne].
  - apply PositiveMap.gss.
  - apply PositiveMap.gso. congruence.
Qed.
Lemma hok_new h c : hok h -> hok (with_new h c).
Proof.
  intros A q d. rewrite hget_new. cbn [nxt with_new]. destruct (Pos.eqb_spec q (nxt h)) as [->|Hne]; intro E; [lia|].
  apply A in E. lia.
Qed.

Ltac peq := repeat match goal with
  | |- context [Pos.eqb ?a ?b] => destruct (Pos.eqb_spec a b); subst
  | H : context [Pos.eqb ?a ?b] |- _ => destruct (Pos.eqb_spec a b); subst
  end.

Lemma optr_eqb_eq a b : optr_eqb a b = true <-> a = b.
Proof.
  destruct a as [x|], b as [y|]; cbn; split; intro H; try congruence; try discriminate.
  - apply Pos.eqb_eq in H. congruence.
  - injection H as ->. apply Pos.eqb_refl.
Qed.
Lemma optr_eqb_refl a : optr_eqb a a = true.
Proof. apply optr_eqb_eq. reflexivity. Qed.
Lemma optr_eqb_neq a b : a <> b -> optr_eqb a b = false.
Proof. intro H. destruct (optr_eqb a b) eqn:E; [apply optr_eqb_eq in E; contradiction|reflexivity]. Qed.

(* ---- the three effects ---- *)

(* q, so far without relatives, becomes the neighbour after z, in the list of
   children of pp if there is one *)
Definition appended (h : heap) (pp : option ptr) (z q : ptr) (h' : heap) : Prop :=
  nxt h' = nxt h /\
  forall x, hget h' x =
    if Pos.eqb x q then option_map (with_lk (fun l => lset_par pp (lset_prev (Some z) l))) (hget h q)
    else if Pos.eqb x z then option_map (with_lk (lset_next (Some q))) (hget h z)
    else if optr_eqb (Some x) pp then option_map (with_lk (lset_last (Some q))) (hget h x)
    else hget h x.
(* q becomes the only child of p *)
Definition adopted (h : heap) (p q : ptr) (h' : heap) : Prop :=
  nxt h' = nxt h /\
  forall x, hget h' x =
    if Pos.eqb x q then option_map (with_lk (lset_par (Some p))) (hget h q)
    else if Pos.eqb x p then option_map (with_lk (fun l => lset_last (Some q) (lset_first (Some q) l))) (hget h p)
    else hget h x.
(* q becomes the last child of y *)
Definition grown (h : heap) (y q : ptr) (h' : heap) : Prop :=
  exists cy, hget h y = Some cy /\
    match l_last (lk cy) with
    | None => adopted h y q h'
    | Some z => appended h (Some y) z q h'
    end.
(* only the data of p changes *)
Definition redata (h : heap) (p : ptr) (d : data) (h' : heap) : Prop :=
  nxt h' = nxt h /\ forall x, hget h' x = if Pos.eqb x p then option_map (with_dat d) (hget h p) else hget h x.

Lemma hok_appended h pp z q h' : hok h -> appended h pp z q h' -> hok h'.
Proof.
  intros A [B1 B2] x c. rewrite B2, B1. peq.
  - destruct (hget h q) as [c0|] eqn:E; cbn; [intros _; apply (A q c0 E)|discriminate].
  - destruct (hget h z) as [c0|] eqn:E; cbn; [intros _; apply (A z c0 E)|discriminate].
  - destruct (optr_eqb _ _); [|apply A].
    destruct (hget h x) as [c0|] eqn:E; cbn; [intros _; apply (A x c0 E)|discriminate].
Qed.
Lemma hok_adopted h p q h' : hok h -> adopted h p q h' -> hok h'.
Proof.
  intros A [B1 B2] x c. rewrite B2, B1. peq; [..|apply A].
  - destruct (hget h q) as [c0|] eqn:E; cbn; [intros _; apply (A q c0 E)|discriminate].
  - destruct (hget h p) as [c0|] eqn:E; cbn; [intros _; apply (A p c0 E)|discriminate].
Qed.
Lemma hok_grown h y q h' : hok h -> grown h y q h' -> hok h'.
Proof.
  intros A (cy & _ & B). destruct (l_last (lk cy)); [eapply hok_appended|eapply hok_adopted]; eassumption.
Qed.
Lemma hok_redata h p d h' : hok h -> redata h p d h' -> hok h'.
Proof.
  intros A [B1 B2] x c. rewrite B2, B1. peq; [|apply A].
  destruct (hget h p) as [c0|] eqn:E; cbn; [intros _; apply (A p c0 E)|discriminate].
Qed.

(* ---- walks are long enough ---- *)
Lemma lt_bounded (n : positive) (l : list ptr) :
  NoDup l -> (forall x, In x l -> (x < n)%positive) -> (List.length l < Pos.to_nat n)%nat.
Proof.
  intros Hn Hl.
  assert (A : incl l (map Pos.of_nat (seq 1 (Pos.to_nat n - 1)))).
  { intros x Hx. apply Hl in Hx. apply in_map_iff. exists (Pos.to_nat x).
    split; [apply Pos2Nat.id|]. apply in_seq. lia. }
  apply (NoDup_incl_length Hn) in A. rewrite map_length, seq_length in A. lia.
Qed.
Lemma path_live h o l : path h o l -> forall x, In x l -> hget h x <> None.
Proof. induction 1; intros x Hx; [destruct Hx|destruct Hx as [<-|Hx]; [congruence|auto]]. Qed.
Lemma path_size h o l : hok h -> path h o l -> NoDup l -> (List.length l < size h)%nat.
Proof.
  intros A B C. unfold size. apply Nat.lt_lt_succ_r, lt_bounded; [exact C|].
  intros x Hx. apply (path_live _ _ _ B) in Hx. destruct (hget h x) as [c|] eqn:E; [apply (A _ _ E)|contradiction].
Qed.
Lemma lastSibling_run h l : forall n p z,
  path h (Some p) l -> lasto l = Some z -> (List.length l <= n)%nat -> lastSibling n p h = (Ret z, h).
Proof.
  induction l as [|x r IH]; intros n p z B E L; [discriminate|].
  inversion B as [|p' c r' B1 B2]; subst. destruct n as [|n]; [cbn in L; lia|]. cbn [lastSibling].
  rewrite (bind_getc _ _ _ _ B1). cbv beta.
  destruct r as [|y r2].
  - inversion B2 as [E2|]. injection E as <-. reflexivity.
  - inversion B2 as [|y' cy r2' B3 B4 E2]; subst. apply IH.
    + econstructor; eassumption.
    + exact E.
    + cbn [List.length] in L |- *. lia.
Qed.

Lemma addSibling_run h p q l z cz cq :
  hok h -> path h (Some p) l -> NoDup l -> lasto l = Some z ->
  hget h z = Some cz -> hget h q = Some cq -> q <> z ->
  l_par (lk cz) <> Some q -> l_par (lk cz) <> Some z ->
  (forall pp, l_par (lk cz) = Some pp -> hget h pp <> None) ->
  exists h', addSibling p q h = (Ret tt, h') /\ appended h (l_par (lk cz)) z q h'.
Proof.
  intros Hk Hp Hn Hl Hz Hq Hqz Hpq Hpz Hpp. unfold addSibling.
  assert (E1 : lastSibling (size h) p h = (Ret z, h)).
  { apply lastSibling_run with l; [exact Hp|exact Hl|]. pose proof (path_size _ _ _ Hk Hp Hn). lia. }
  erewrite hbind_ret; [|exact E1]. unfold setNext, setPrev, setPar, setLast.
  erewrite bind_upd; [|exact Hz].
  erewrite bind_upd; [|rewrite hget_hset_other; [exact Hq|exact Hqz]].
  erewrite bind_getc; [|rewrite hget_hset_other, hget_hset_same; [reflexivity|congruence]].
  erewrite bind_upd; [|apply hget_hset_same]. cbn [with_lk lset_next lk l_par].
  destruct (l_par (lk cz)) as [pp|] eqn:Epp.
  - specialize (Hpp pp eq_refl). destruct (hget h pp) as [cp|] eqn:Ecp; [|contradiction].
    erewrite upd_run.
    2:{ rewrite !hget_hset. destruct (Pos.eqb_spec pp q) as [->|]; [congruence|].
        destruct (Pos.eqb_spec pp z) as [->|]; [congruence|]. exact Ecp. }
    eexists. split; [reflexivity|]. split; [reflexivity|]. intro x. rewrite !hget_hset. cbn [optr_eqb].
    peq; try congruence; rewrite ?Hq, ?Hz, ?Ecp; reflexivity.
  - eexists. split; [reflexivity|]. split; [reflexivity|]. intro x. rewrite !hget_hset. cbn [optr_eqb].
    peq; try congruence; rewrite ?Hq, ?Hz; reflexivity.
Qed.

(* ---- trees under the effects ---- *)

(* the root of t gets other relatives, the rest of t stays *)
Lemma linked_root h h' t par prev next par' prev' next' :
  linked h par prev next t ->
  (forall c, hget h (root t) = Some c ->
     exists c', hget h' (root t) = Some c' /\ dat c' = dat c /\
                lk c' = Lk (l_first (lk c)) (l_last (lk c)) par' next' prev') ->
  agree h h' (tl (ptrs t)) -> linked h' par' prev' next' t.
Proof.
  destruct t as [p a k]. intros L R A. apply linked_eq in L as [(c & L1 & L2 & L3) L4].
  cbn [ptrs tl root] in *. apply agree_app in A as [A1 A2].
  destruct (R c L1) as (c' & R1 & R2 & R3). rewrite L2 in R3. cbn [l_first l_last] in R3.
  apply linked_eq. split.
  - exists c'. refine (conj R1 (conj R3 _)). rewrite R2. eapply props_frame; eassumption.
  - eapply linkeds_frame; eassumption.
Qed.

Definition no_kids_data (d : data) : bool :=
  match d with DText _ | DComment _ => true | _ => false end.

Lemma nodup_app_l {A} (a b : list A) : NoDup (a ++ b) -> NoDup a.
Proof. intro H. induction a as [|x r IH]; [constructor|]. cbn in H. inversion H; subst.
  constructor; [intro; apply H2, in_or_app; tauto|auto]. Qed.
Lemma nodup_app_r {A} (a b : list A) : NoDup (a ++ b) -> NoDup b.
Proof. intro H. induction a as [|x r IH]; [exact H|]. cbn in H. inversion H; subst. auto. Qed.
Lemma nodup_app_disj {A} (a b : list A) x : NoDup (a ++ b) -> In x a -> In x b -> False.
Proof.
  intro H. induction a as [|y r IH]; [intros []|]. cbn in H. inversion H; subst.
  intros [->|Hx] Hb; [apply H2, in_or_app; tauto|auto].
Qed.

(* q, with its tree tq, goes to the end of a list of siblings *)
Lemma linkeds_appended h h' par prev a tz tq :
  linkeds h par prev None (a ++ [tz]) -> linked h None None None tq ->
  NoDup (flat_map ptrs (a ++ [tz]) ++ ptrs tq) ->
  (forall y, par = Some y -> ~ In y (flat_map ptrs (a ++ [tz]) ++ ptrs tq)) ->
  appended h par (root tz) (root tq) h' ->
  linkeds h' par prev None ((a ++ [tz]) ++ [tq]).
Proof.
  intros L Lq Hn Hy [_ B]. rewrite <- app_assoc.
  rewrite flat_map_app in Hn, Hy. cbn [flat_map] in Hn, Hy. rewrite app_nil_r in Hn, Hy.
  assert (Out : forall x, x <> root tq -> x <> root tz -> par <> Some x -> hget h' x = hget h x).
  { intros x X1 X2 X3. rewrite B. peq; try contradiction. rewrite optr_eqb_neq; [reflexivity|congruence]. }
  assert (Hqz : root tz <> root tq).
  { intro E. apply (nodup_app_disj _ _ (root tz) Hn); [apply in_or_app; right; apply in_root_ptrs|].
    rewrite E. apply in_root_ptrs. }
  apply linkeds_app in L as [L1 [L2 _]]. apply linkeds_app. cbn [app map root hdo linkeds] in *.
  refine (conj _ (conj _ (conj _ I))).
  - eapply linkeds_frame; [exact L1|]. intros x Hx. apply Out.
    + intros ->. apply (nodup_app_disj _ _ (root tq) Hn); [apply in_or_app; tauto|apply in_root_ptrs].
    + intros ->. apply nodup_app_l in Hn. apply (nodup_app_disj _ _ (root tz) Hn); [exact Hx|apply in_root_ptrs].
    + intro E. apply (Hy x E). apply in_or_app; left; apply in_or_app; tauto.
  - eapply linked_root; [exact L2| |].
    + intros c Hc. rewrite B. destruct (Pos.eqb_spec (root tz) (root tq)) as [E|_]; [contradiction|].
      rewrite Pos.eqb_refl, Hc. cbn [option_map]. eexists. refine (conj eq_refl (conj eq_refl _)).
      destruct tz as [p1 a1 k1]. apply linked_eq in L2 as [(c' & M1 & M2 & _) _]. cbn [root] in Hc.
      rewrite Hc in M1. injection M1 as ->. cbn [with_lk lk]. rewrite M2. reflexivity.
    + intros x Hx.
      assert (Hx' : In x (ptrs tz)) by (destruct tz; right; exact Hx).
      apply Out.
      * intros ->. apply (nodup_app_disj _ _ (root tq) Hn); [apply in_or_app; tauto|apply in_root_ptrs].
      * intros ->. apply nodup_app_l, nodup_app_r in Hn. destruct tz as [p1 a1 k1]. cbn [ptrs root tl] in *.
        inversion Hn; contradiction.
      * intro E. apply (Hy x E). apply in_or_app; left; apply in_or_app; tauto.
  - eapply linked_root; [exact Lq| |].
    + intros c Hc. rewrite B, Pos.eqb_refl, Hc. cbn [option_map]. eexists. refine (conj eq_refl (conj eq_refl _)).
      destruct tq as [p1 a1 k1]. apply linked_eq in Lq as [(c' & M1 & M2 & _) _]. cbn [root] in Hc.
      rewrite Hc in M1. injection M1 as ->. cbn [with_lk lk lset_par lset_prev l_first l_last l_next]. rewrite M2.
      reflexivity.
    + intros x Hx.
      assert (Hx' : In x (ptrs tq)) by (destruct tq; right; exact Hx).
      apply Out.
      * intros ->. apply nodup_app_r in Hn. destruct tq as [p1 a1 k1]. cbn [ptrs root tl] in *.
        inversion Hn; contradiction.
      * intros ->. apply (nodup_app_disj _ _ (root tz) Hn); [apply in_or_app; right; apply in_root_ptrs|exact Hx'].
      * intro E. apply (Hy x E). apply in_or_app; tauto.
Qed.

(* tq becomes the last child of node y of t *)
Fixpoint addk (y : ptr) (tq : ltree) (t : ltree) : ltree :=
  match t with
  | N x a k => if Pos.eqb x y then N x a (k ++ [tq]) else N x a (map (addk y tq) k)
  end.
Lemma root_addk y tq t : root (addk y tq t) = root t.
Proof. destruct t as [x a k]. cbn. destruct (Pos.eqb x y); reflexivity. Qed.
Lemma addk_id y tq t : ~ In y (nodes t) -> addk y tq t = t.
Proof.
  induction t as [x a k IH] using ltree_ind'. cbn [nodes addk]. intro H.
  destruct (Pos.eqb_spec x y) as [->|Hne]; [exfalso; apply H; left; reflexivity|].
  f_equal. rewrite Forall_forall in IH. rewrite <- (map_id k) at 2. apply map_ext_in.
  intros t Ht. apply IH; [exact Ht|]. intro Hy. apply H. right. apply in_flat_map. exists t. auto.
Qed.

(* the subtree at a node *)
Lemma find_sub h t : forall par prev next y, linked h par prev next t -> In y (nodes t) ->
  exists a k par' pv nx, linked h par' pv nx (N y a k) /\ incl (ptrs (N y a k)) (ptrs t) /\
                         incl (nodes (N y a k)) (nodes t).
Proof.
  induction t as [x a k IH] using ltree_ind'. intros par prev next y L Hy. cbn [nodes] in Hy.
  destruct Hy as [->|Hy]; [exists a, k, par, prev, next; split; [exact L|split; apply incl_refl]|].
  apply in_flat_map in Hy as (t & Ht & Hy). pose proof L as L0. apply linked_eq in L as [_ L4].
  destruct (linkeds_in _ _ _ _ _ _ L4 Ht) as (pv & nx & Lt). rewrite Forall_forall in IH.
  destruct (IH t Ht _ _ _ y Lt Hy) as (a' & k' & par' & pv' & nx' & A & B & C).
  exists a', k', par', pv', nx'. refine (conj A (conj _ _)).
  - intros z Hz. cbn [ptrs]. right. apply in_or_app. right. apply in_flat_map. exists t. auto.
  - intros z Hz. cbn [nodes]. right. apply in_flat_map. exists t. auto.
Qed.

Definition holds_kids (h : heap) (y : ptr) : Prop :=
  forall c, hget h y = Some c -> no_kids_data (dat c) = false.

Lemma flat_map_in_split {A B} (f : A -> list B) (l : list A) (y : B) :
  In y (flat_map f l) -> exists a t b, l = a ++ t :: b /\ In y (f t).
Proof.
  intro H. apply in_flat_map in H as (t & Ht & Hy). apply in_split in Ht as (a & b & ->). exists a, t, b. auto.
Qed.

Lemma linked_addk h h' y tq t : forall par prev next,
  linked h par prev next t -> NoDup (ptrs t ++ ptrs tq) -> In y (nodes t) ->
  linked h None None None tq -> holds_kids h y -> grown h y (root tq) h' ->
  linked h' par prev next (addk y tq t).
Proof.
  induction t as [x a k IH] using ltree_ind'. intros par prev next L Hn Hy Lq Hk G.
  pose proof L as L0. apply linked_eq in L as [(c & L1 & L2 & L3) L4]. cbn [addk].
  destruct (Pos.eqb_spec x y) as [->|Hxy].
  - (* here *)
    clear IH. specialize (Hk c L1). destruct G as (cy & G1 & G2). rewrite L1 in G1. injection G1 as <-.
    rewrite L2 in G2. cbn [l_last] in G2.
    cbn [ptrs app] in Hn. apply NoDup_cons_iff in Hn as [Hny Hn]. rewrite <- app_assoc in Hn, Hny.
    assert (Hny2 : ~ In y (flat_map ptrs k ++ ptrs tq)) by (intro; apply Hny, in_or_app; tauto).
    assert (Hnk : NoDup (flat_map ptrs k ++ ptrs tq)) by (eapply nodup_app_r; exact Hn).
    assert (Hrq : y <> root tq) by (intros ->; apply Hny2, in_or_app; right; apply in_root_ptrs).
    destruct (snoc_cases k) as [->|(ka & tz & ->)].
    + cbn [map lasto] in G2. destruct G2 as [_ B].
      assert (Aa : agree h h' (attptrs a)).
      { intros z Hz. rewrite B. peq; try reflexivity.
        - exfalso. apply (nodup_app_disj _ _ (root tq) Hn); [exact Hz|]. apply in_or_app; right; apply in_root_ptrs.
        - exfalso. apply Hny, in_or_app. tauto. }
      apply linked_eq. split.
      * eexists. split; [rewrite B, Pos.eqb_refl; destruct (Pos.eqb_spec y (root tq)); [contradiction|rewrite L1; reflexivity]|].
        cbn [with_lk lk dat app map root hd_error lasto]. rewrite L2. cbn [lset_last lset_first l_par l_next l_prev l_first l_last].
        split; [reflexivity|]. apply (props_frame _ h') in L3; [|exact Aa].
        destruct (dat c); cbn [props_ok no_kids_data] in *; try discriminate; exact L3.
      * cbn [linkeds app map hdo]. split; [|exact I]. eapply linked_root; [exact Lq| |].
        -- intros cq Hc. rewrite B, Pos.eqb_refl, Hc. cbn [option_map]. eexists. refine (conj eq_refl (conj eq_refl _)).
           destruct tq as [p1 a1 k1]. apply linked_eq in Lq as [(c' & M1 & M2 & _) _]. cbn [root] in Hc.
           rewrite Hc in M1. injection M1 as ->. cbn [with_lk lk lset_par]. rewrite M2. reflexivity.
        -- intros z Hz. assert (Hz' : In z (ptrs tq)) by (destruct tq; right; exact Hz). rewrite B.
           peq; try reflexivity.
           ++ exfalso. apply nodup_app_r in Hnk. destruct tq as [p1 a1 k1]. cbn [ptrs root tl] in *. inversion Hnk; contradiction.
           ++ exfalso. apply Hny2, in_or_app. tauto.
    + rewrite map_app in G2. cbn [map] in G2. rewrite lasto_snoc in G2.
      pose proof G2 as [_ B].
      assert (Aa : agree h h' (attptrs a)).
      { intros z Hz. rewrite B. peq; try reflexivity.
        - exfalso. apply (nodup_app_disj _ _ (root tq) Hn); [exact Hz|]. apply in_or_app; right; apply in_root_ptrs.
        - exfalso. apply (nodup_app_disj _ _ (root tz) Hn); [exact Hz|]. apply in_or_app; left. rewrite flat_map_app.
          apply in_or_app; right. cbn [flat_map]. rewrite app_nil_r. apply in_root_ptrs.
        - cbn [optr_eqb]. peq; [|reflexivity]. exfalso. apply Hny, in_or_app. tauto. }
      assert (Hyz : y <> root tz).
      { intros ->. apply Hny2, in_or_app. left. rewrite flat_map_app. apply in_or_app; right. cbn [flat_map].
        rewrite app_nil_r. apply in_root_ptrs. }
      apply linked_eq. split.
      * eexists. split.
        { rewrite B. destruct (Pos.eqb_spec y (root tq)); [contradiction|].
          destruct (Pos.eqb_spec y (root tz)); [contradiction|]. rewrite optr_eqb_refl, L1. reflexivity. }
        cbn [with_lk lk dat]. rewrite L2. cbn [lset_last l_par l_next l_prev l_first l_last].
        split.
        { rewrite (map_app _ (ka ++ [tz])). cbn [map]. rewrite lasto_snoc. f_equal.
          destruct ka; reflexivity. }
        apply (props_frame _ h') in L3; [|exact Aa].
        destruct (dat c); cbn [props_ok no_kids_data] in *; try discriminate; exact L3.
      * eapply linkeds_appended; try eassumption. intros y' E. injection E as <-. exact Hny2.
  - (* below *)
    cbn [nodes] in Hy. destruct Hy as [Hy|Hy]; [contradiction|].
    apply flat_map_in_split in Hy as (k1 & t & k2 & -> & Hy).
    apply linkeds_app in L4 as [L4 [L5 L6]].
    rewrite Forall_forall in IH. assert (Ht : In t (k1 ++ t :: k2)) by (apply in_or_app; right; left; reflexivity).
    destruct (find_sub _ _ _ _ _ _ L5 Hy) as (ay & ky & py & pvy & nxy & Ly & Iy & _).
    (* the cells that change are q and cells of t *)
    assert (Ch : forall z, ~ In z (ptrs t) -> z <> root tq -> hget h' z = hget h z).
    { intros z Z1 Z2. destruct G as (cy & G1 & G2). apply linked_eq in Ly as [(c' & M1 & M2 & _) _].
      rewrite M1 in G1. injection G1 as <-. rewrite M2 in G2. cbn [l_last] in G2.
      assert (Zy : z <> y) by (intros ->; apply Z1, Iy; left; reflexivity).
      destruct (snoc_cases ky) as [->|(kb & tz & ->)].
      - cbn [map lasto] in G2. destruct G2 as [_ B]. rewrite B. peq; try contradiction; reflexivity.
      - rewrite map_app in G2. cbn [map] in G2. rewrite lasto_snoc in G2. destruct G2 as [_ B]. rewrite B.
        destruct (Pos.eqb_spec z (root tq)); [contradiction|].
        destruct (Pos.eqb_spec z (root tz)) as [->|].
        + exfalso. apply Z1, Iy. cbn [ptrs]. right. apply in_or_app. right. rewrite flat_map_app.
          apply in_or_app; right. cbn [flat_map]. rewrite app_nil_r. apply in_root_ptrs.
        + cbn [optr_eqb]. peq; [contradiction|reflexivity]. }
    cbn [ptrs app] in Hn. apply NoDup_cons_iff in Hn as [Hnx Hn]. rewrite <- app_assoc in Hn, Hnx.
    rewrite flat_map_app in Hn, Hnx. cbn [flat_map] in Hn, Hnx.
    rewrite map_app. cbn [map].
    assert (Kid : forall z u, In z (ptrs u) -> In u k1 \/ In u k2 -> ~ In z (ptrs t) /\ z <> root tq).
    { intros z u Hz Hu. apply nodup_app_r in Hn. destruct Hu as [Hu|Hu].
      - assert (Z : In z (flat_map ptrs k1)) by (apply in_flat_map; exists u; auto).
        rewrite <- !app_assoc in Hn. split; intro E.
        + apply (nodup_app_disj _ _ z Hn Z). apply in_or_app; left; exact E.
        + subst z. apply (nodup_app_disj _ _ _ Hn Z). apply in_or_app; right. apply in_or_app; right. apply in_root_ptrs.
      - assert (Z : In z (flat_map ptrs k2)) by (apply in_flat_map; exists u; auto).
        rewrite <- !app_assoc in Hn. apply nodup_app_r in Hn. split; intro E.
        + apply (nodup_app_disj _ _ z Hn E). apply in_or_app; left; exact Z.
        + subst z. apply nodup_app_r in Hn. apply (nodup_app_disj _ _ _ Hn Z). apply in_root_ptrs. }
    assert (Id : forall l, (forall u, In u l -> In u k1 \/ In u k2) -> map (addk y tq) l = l).
    { intros l Hl. rewrite <- (map_id l) at 2. apply map_ext_in. intros u Hu. apply addk_id. intro Hyu.
      destruct (Kid y u (nodes_in_ptrs _ _ Hyu) (Hl u Hu)) as [X _]. apply X. apply nodes_in_ptrs, Hy. }
    rewrite !Id by (intros; tauto).
    assert (Ag : forall l, (forall u, In u l -> In u k1 \/ In u k2) -> agree h h' (flat_map ptrs l)).
    { intros l Hl z Hz. apply in_flat_map in Hz as (u & Hu & Hz). destruct (Kid z u Hz (Hl u Hu)). apply Ch; assumption. }
    apply linked_eq. split.
    + exists c. refine (conj _ (conj _ _)).
      * rewrite <- L1. apply Ch.
        -- intro E. apply Hnx. apply in_or_app; right. apply in_or_app; left. apply in_or_app; right. apply in_or_app; tauto.
        -- intros ->. apply Hnx. apply in_or_app; right. apply in_or_app; right. apply in_root_ptrs.
      * rewrite L2, !map_app. cbn [map]. rewrite root_addk. reflexivity.
      * assert (Aa : agree h h' (attptrs a)).
        { intros z Hz. apply Ch.
          - intro E. apply (nodup_app_disj _ _ z Hn Hz). apply in_or_app; left. apply in_or_app; right. apply in_or_app; tauto.
          - intros ->. apply (nodup_app_disj _ _ _ Hn Hz). apply in_or_app; right. apply in_root_ptrs. }
        apply (props_frame _ h') in L3; [|exact Aa]. 
        destruct (dat c); cbn [props_ok] in *; try exact L3.
        -- destruct L3 as [_ L3]. destruct k1; discriminate.
        -- destruct L3 as [_ L3]. destruct k1; discriminate.
    + apply linkeds_app. cbn [map hdo linkeds] in *. rewrite root_addk. refine (conj _ (conj _ _)).
      * eapply linkeds_frame; [exact L4|]. apply Ag. tauto.
      * apply IH; try assumption.
        apply nodup_app_r in Hn. rewrite <- !app_assoc in Hn. apply nodup_app_r in Hn.
        (* ptrs t ++ flat_map ptrs k2 ++ ptrs tq *)
        clear - Hn. revert Hn. generalize (ptrs t) (flat_map ptrs k2) (ptrs tq). intros A B C Hn.
        induction A as [|z A IHA]; cbn in *.
        -- eapply nodup_app_r; exact Hn.
        -- apply NoDup_cons_iff in Hn as [H1 H2]. constructor; [|auto]. intro H. apply H1.
           apply in_app_or in H as [H|H]; apply in_or_app; [tauto|right; apply in_or_app; tauto].
      * eapply linkeds_frame; [exact L6|]. apply Ag. tauto.
Qed.

Lemma ptrs_addk y tq t : NoDup (ptrs t) -> In y (nodes t) -> Permutation (ptrs (addk y tq t)) (ptrs t ++ ptrs tq).
Proof.
  induction t as [x a k IH] using ltree_ind'. intros Hn Hy. cbn [addk nodes] in *.
  destruct (Pos.eqb_spec x y) as [->|Hxy].
  - cbn [ptrs app]. rewrite flat_map_app. cbn [flat_map]. rewrite app_nil_r, !app_assoc. reflexivity.
  - destruct Hy as [Hy|Hy]; [contradiction|]. apply flat_map_in_split in Hy as (k1 & t & k2 & -> & Hy).
    cbn [ptrs] in Hn. apply NoDup_cons_iff in Hn as [_ Hn]. apply nodup_app_r in Hn.
    rewrite flat_map_app in Hn. cbn [flat_map] in Hn.
    assert (Id : forall l, (forall u, In u l -> In u k1 \/ In u k2) -> map (addk y tq) l = l).
    { intros l Hl. rewrite <- (map_id l) at 2. apply map_ext_in. intros u Hu. apply addk_id. intro Hyu.
      apply nodes_in_ptrs in Hyu, Hy. destruct (Hl u Hu) as [Hu'|Hu'].
      - apply (nodup_app_disj _ _ y Hn); [apply in_flat_map; exists u; auto|apply in_or_app; tauto].
      - apply nodup_app_r in Hn. apply (nodup_app_disj _ _ y Hn); [exact Hy|apply in_flat_map; exists u; auto]. }
    rewrite map_app. cbn [map]. rewrite !Id by (intros; tauto). cbn [ptrs app].
    rewrite !flat_map_app. cbn [flat_map].
    rewrite Forall_forall in IH.
    assert (P : Permutation (ptrs (addk y tq t)) (ptrs t ++ ptrs tq)).
    { apply IH; [apply in_or_app; right; left; reflexivity| |exact Hy]. apply nodup_app_r in Hn. eapply nodup_app_l; exact Hn. }
    constructor. rewrite P, <- !app_assoc. apply Permutation_app_head, Permutation_app_head, Permutation_app_head.
    apply Permutation_app_comm.
Qed.

(* Declarations in a DTD: what AddEntity, AddElementDecl and the registration
   of attributes do to the tables and to the tree. *)
From Coq Require Import FMapPositive Permutation.
From Verif Require Import Base Utf8 Utf8Proofs Escape Scan Heap TreeShape TreeOps Forest ForestOps ForestAdd ForestAttr History TreeCalls TreeRead TreeReplace.

(* ---- tables ---- *)
Lemma tget_nil k : tget [] k = None.
Proof. reflexivity. Qed.
Lemma tget_put t k p k' : tget (tput t k p) k' = if str_eqb k k' then Some p else tget t k'.
Proof.
  unfold tget, tput. cbn [find fst]. destruct (str_eqb_spec k k') as [->|Hne]; [reflexivity|].
  unfold tdel. induction t as [|[a x] r IH]; cbn [filter find fst]; [reflexivity|].
  destruct (str_eqb_spec a k) as [->|Ha]; cbn [negb filter find fst].
  - destruct (str_eqb_spec k k'); [contradiction|exact IH].
  - destruct (str_eqb a k'); [reflexivity|exact IH].
Qed.
Lemma tget_del t k k' : k <> k' -> tget (tdel t k) k' = tget t k'.
Proof.
  intro Hne. unfold tget, tdel. induction t as [|[a x] r IH]; cbn [filter find fst]; [reflexivity|].
  destruct (str_eqb_spec a k) as [->|Ha]; cbn [negb filter find fst].
  - destruct (str_eqb_spec k k'); [contradiction|exact IH].
  - destruct (str_eqb a k'); [reflexivity|exact IH].
Qed.

(* ---- keys ---- *)
Lemma app_last_inj (a b c d : str) x : ~ In x b -> ~ In x d -> a ++ x :: b = c ++ x :: d -> a = c /\ b = d.
Proof.
  intros Hb Hd E. apply (f_equal (@rev Z)) in E. rewrite !rev_app_distr in E. cbn [rev] in E. rewrite <- !app_assoc in E. cbn [app] in E.
  assert (X : forall u v u' v' : str, ~ In x u -> ~ In x v -> u ++ x :: u' = v ++ x :: v' -> u = v /\ u' = v').
  { induction u as [|z u IH]; intros [|w v] u' v' Hu Hv E'; cbn [app] in E'; injection E'; intros; subst.
    - auto.
    - exfalso. apply Hv. left. reflexivity.
    - exfalso. apply Hu. left. reflexivity.
    - destruct (IH v u' v') as [-> ->]; auto; intro; [apply Hu|apply Hv]; right; assumption. }
  destruct (X _ _ _ _ (fun H => Hb (proj2 (in_rev _ _) H)) (fun H => Hd (proj2 (in_rev _ _) H)) E) as [E1 E2].
  apply (f_equal (@rev Z)) in E1, E2. rewrite !rev_involutive in *. auto.
Qed.
Lemma app_first_inj (x : Z) : forall u v u' v' : str, ~ In x u -> ~ In x v -> u ++ x :: u' = v ++ x :: v' -> u = v /\ u' = v'.
Proof.
  induction u as [|z u IH]; intros [|w v] u' v' Hu Hv E'; cbn [app] in E'; injection E'; intros; subst.
  - auto.
  - exfalso. apply Hv. left. reflexivity.
  - exfalso. apply Hu. left. reflexivity.
  - destruct (IH v u' v') as [-> ->]; auto; intro; [apply Hu|apply Hv]; right; assumption.
Qed.
Lemma elem_key_inj n p n' p' : ~ In 58 p -> ~ In 58 p' -> elem_key n p = elem_key n' p' -> n = n' /\ p = p'.
Proof. unfold elem_key. cbn [app]. intros. eapply app_last_inj; eassumption. Qed.
Lemma attr_key_inj n p e n' p' e' : ~ In 58 n -> ~ In 58 n' -> ~ In 58 p -> ~ In 58 p' ->
  attr_key n p e = attr_key n' p' e' -> n = n' /\ p = p' /\ e = e'.
Proof.
  unfold attr_key. cbn [app]. intros A B C D E. apply app_first_inj in E as [-> E]; [|assumption..].
  apply app_first_inj in E as [-> ->]; auto.
Qed.
Lemma prefix_no_colon name p l : prefix_local name = (p, l) -> ~ In 58 p.
Proof.
  unfold prefix_local. destruct (split_colon name) as [[p' l']|] eqn:E; intro H; injection H as <- <-; [|intros []].
  revert p' l' E. induction name as [|c r IH]; intros p' l' E; cbn [split_colon] in E; [discriminate|].
  destruct (c =? 58) eqn:Ec; [injection E as <- <-; intros []|]. destruct (split_colon r) as [[a b]|]; [|discriminate].
  injection E as <- <-. intros [H|H]; [subst; discriminate|]. exact (IH _ _ eq_refl H).
Qed.

(* ---- well-formed DTDs ---- *)

(* the entries of the tables point to declarations with the name of their key *)
Definition tabs_ok (h : heap) (t : tables) : Prop :=
  (forall k p, tget (t_elems t) k = Some p ->
     exists nm pf ty ct, data_of h p = Some (DElemDecl nm pf ty ct) /\ k = elem_key nm pf /\ ty <> UndefinedElementType /\ ~ In 58 pf) /\
  (forall k p, tget (t_attrs t) k = Some p ->
     exists el nm pf ty df v en, data_of h p = Some (DAttrDecl el nm pf ty df v en) /\ k = attr_key nm pf el) /\
  (forall k p, tget (t_ents t) k = Some p ->
     exists ty ex sy ct og, data_of h p = Some (DEntity k ty ex sy ct og) /\ 1 <= ty <= 3) /\
  (forall k p, tget (t_pents t) k = Some p ->
     exists ty ex sy ct og, data_of h p = Some (DEntity k ty ex sy ct og) /\ 4 <= ty <= 5).
(* the owner, if any, is a document, and the DTD is its only subset *)
Definition owner_ok (h : heap) (dtd : ptr) (o : option ptr) : Prop :=
  match o with
  | None => True
  | Some d => exists v e s i x, data_of h d = Some (DDoc v e s i x) /\ (i = None \/ (i = Some dtd /\ x <> Some dtd))
  end.
Definition no_doc (h : heap) (dtd : ptr) : Prop := forall x, parent_of h x = Some dtd -> kind h x <> Some DocumentNode.
Definition dtd_ok (h : heap) (dtd : ptr) (t : tables) : Prop :=
  (exists F G, forest h F G) /\ ~ in_attr h dtd /\ no_doc h dtd /\ tabs_ok h t /\
  exists c n e s, hget h dtd = Some c /\ dat c = DDtd n e s t /\ owner_ok h dtd (owner c).

(* ---- a new declaration enters ---- *)
(* q is a new loose node, the tables of dtd are t, the rest is as in h0 *)
Definition based (h0 h : heap) (dtd : ptr) (t : tables) (q : ptr) (dq : data) (oq : option ptr) : Prop :=
  q = nxt h0 /\ nxt h = Pos.succ q /\ hget h q = Some {| lk := nolinks; owner := oq; dat := dq |} /\
  (exists c n e s t0, hget h0 dtd = Some c /\ dat c = DDtd n e s t0 /\ hget h dtd = Some (with_dat (DDtd n e s t) c)) /\
  forall x, x <> q -> x <> dtd -> hget h x = hget h0 x.
(* the same with q attached under dtd: every other node keeps its data, owner and parent *)
Definition registered (h0 h : heap) (dtd : ptr) (t : tables) (q : ptr) (dq : data) (oq : option ptr) : Prop :=
  hget h0 q = None /\ data_of h q = Some dq /\ option_map owner (hget h q) = Some oq /\ parent_of h q = Some dtd /\
  (exists n e s t0, data_of h0 dtd = Some (DDtd n e s t0) /\ data_of h dtd = Some (DDtd n e s t)) /\
  (forall x, x <> q -> option_map owner (hget h x) = option_map owner (hget h0 x) /\ parent_of h x = parent_of h0 x /\
                       (x <> dtd -> data_of h x = data_of h0 x)) /\
  (forall cs, children h0 dtd cs -> children h dtd (cs ++ [q]) /\
     forall y ks, y <> dtd -> ~ in_attr h0 y -> children h0 y ks -> children h y ks) /\
  exists F G, forest h F G.

Lemma based_forest h0 h dtd t q dq oq F G : forest h0 F G -> based h0 h dtd t q dq oq -> fresh_data dq ->
  forest h ([N q [] []] :: F) G.
Proof.
  intros FH (-> & Nx & Eq & (c & n & e & s & t0 & Ec & Dc & Ed) & O) Fr.
  eapply forest_similar; [|exact (forest_new _ _ _ oq dq FH Fr)]. split; [exact Nx|]. intro x. rewrite hget_new.
  destruct (Pos.eqb_spec x (nxt h0)) as [->|Hx]; [rewrite Eq; split; [reflexivity|apply same_kind_refl]|].
  destruct (Pos.eq_dec x dtd) as [->|Hd].
  - rewrite Ec, Ed. split; [reflexivity|]. cbn [dat with_dat]. rewrite Dc. exact I.
  - rewrite O by assumption. destruct (hget h0 x); [split; [reflexivity|apply same_kind_refl]|exact I].
Qed.
Lemma based_register h0 h dtd t q dq oq t1 : dtd_ok h0 dtd t1 -> based h0 h dtd t q dq oq ->
  fresh_data dq -> no_kids_data dq = false -> typeOf dq <> DocumentNode ->
  exists h', AddChild dtd q h = (Ret tt, h') /\ registered h0 h' dtd t q dq oq.
Proof.
  intros ((F & G & FH) & NA & ND & _ & _) B Fr Nk Kd. pose proof (based_forest _ _ _ _ _ _ _ _ _ FH B Fr) as FB.
  destruct B as (-> & Nx & Eq & (c & n & e & s & t0 & Ec & Dc & Ed) & O).
  assert (Hq0 : hget h0 (nxt h0) = None).
  { destruct (hget h0 (nxt h0)) as [c0|] eqn:E; [|reflexivity]. apply (f_ok _ _ _ FH) in E. lia. }
  assert (Hqd : nxt h0 <> dtd) by congruence.
  assert (Old : forall x, x <> nxt h0 -> option_map lk (hget h x) = option_map lk (hget h0 x) /\ option_map owner (hget h x) = option_map owner (hget h0 x) /\
                  (x <> dtd -> data_of h x = data_of h0 x)).
  { intros x Hx. destruct (Pos.eq_dec x dtd) as [->|Hd].
    - rewrite Ec, Ed. cbn. repeat split; auto. contradiction.
    - unfold data_of. rewrite O by assumption. auto. }
  assert (Par : forall x, x <> nxt h0 -> parent_of h x = parent_of h0 x).
  { intros x Hx. destruct (Old x Hx) as [A _]. unfold parent_of. destruct (hget h x), (hget h0 x); cbn in A; congruence. }
  assert (NAh : ~ in_attr h dtd).
  { intros (c' & E' & H). rewrite Ed in E'. injection E' as <-. cbn in H. apply NA. exists c. split; [exact Ec|].
    destruct H as [H|(r & d & P & E2 & A)]; [discriminate|]. right. exists r, d. refine (conj P (conj _ A)).
    destruct (Pos.eq_dec r (nxt h0)) as [->|Hr]; [rewrite Eq in E2; injection E2 as <-; destruct dq; cbn in *; try discriminate; contradiction|].
    destruct (Pos.eq_dec r dtd) as [->|Hrd]; [rewrite Ed in E2; injection E2 as <-; discriminate|]. rewrite <- O by assumption. exact E2. }
  assert (A : attachable h dtd (nxt h0)).
  { refine (conj _ (conj NAh (conj _ _))).
    - eexists. exact Ed.
    - eexists. split; [exact Eq|]. cbn. repeat split. destruct dq; cbn in *; try reflexivity. contradiction.
    - intro X. assert (Y : forall y, ancestor h (nxt h0) y -> y = nxt h0).
      { intros y Hy. induction Hy as [|y cy r Ey Py Hy IH]; [reflexivity|]. subst r. exfalso.
        assert (Hp : parent_of h0 y = Some (nxt h0)).
        { destruct (Pos.eq_dec y (nxt h0)) as [->|Hy']; [rewrite Eq in Ey; injection Ey as <-; discriminate|].
          rewrite <- Par by exact Hy'. unfold parent_of. rewrite Ey. exact Py. }
        unfold parent_of in Hp. destruct (hget h0 y) as [c0|] eqn:E0; [|discriminate].
        destruct (forest_live _ _ _ _ _ FH E0) as [Z|[[_ Z]|(a & ca & ss & Z1 & _ & _ & _ & Z5 & _)]].
        - destruct (forest_parent _ _ _ _ _ _ FH Z E0 Hp) as (? & ? & ? & ? & ? & Lk & _). apply linked_eq in Lk as [(cc & E1 & _) _]. congruence.
        - congruence.
        - rewrite Hp in Z1. injection Z1 as <-. congruence. }
      apply Hqd. symmetry. apply Y, X. }
  destruct (AddChild_forest _ _ _ _ _ FB A) as (r & h' & Rn & Ef & F' & FH').
  assert (Ef' : r = Ret tt /\ grown h dtd (nxt h0) h').
  { assert (NDl : forall l cl, l_last (lk c) = Some l -> hget h l = Some cl -> typeOf (dat cl) = DocumentNode -> False).
    { intros l cl Ll El Kl. pose proof (forest_consistent _ _ _ FH) as C. destruct (C dtd c Ec) as [X _].
      destruct X as (cs & Ch); [rewrite Dc; reflexivity|]. pose proof (children_last _ _ _ _ Ch Ec) as La. rewrite Ll in La. symmetry in La.
      apply lasto_in in La. apply (children_in _ _ _ _ Ch) in La. apply (ND _ La).
      assert (Hl : l <> nxt h0) by (intros ->; unfold parent_of in La; rewrite Hq0 in La; discriminate).
      destruct (Pos.eq_dec l dtd) as [->|Hld]; [rewrite Ed in El; injection El as <-; discriminate|].
      rewrite O in El by assumption. rewrite (kind_some _ _ _ El), Kl. reflexivity. }
    destruct Ef as [c1 c2 s' t' h' E1 E2 D1 D2 Rd|c1 c2 s' t' h' E1 E2 D1 D2 Rd|c1 c2 e' E1 E2 D1 D2|c1 c2 cl l s' t' h' E1 D0 L1 E3 E2 D1 D2 Rd|c1 cl l e' E1 D0 L1 E3 D1|c1 c2 h' E1 E2 D0 NT Gr];
      rewrite Ed in E1; injection E1 as <-; cbn in *; try discriminate.
    - rewrite Eq in E2. injection E2 as <-. cbn in D2. subst dq. discriminate.
    - exfalso. eapply NDl; eassumption.
    - auto. }
  destruct Ef' as [-> Gr]. exists h'. split; [exact Rn|].
  assert (Gd : forall x cx, hget h x = Some cx -> exists c', hget h' x = Some c' /\ dat c' = dat cx /\ owner c' = owner cx) by (intros; eapply grown_dat; eassumption).
  assert (Gn : forall x, hget h x = None -> hget h' x = None).
  { intros x E. destruct Gr as (cy & Ey & Gr). destruct (l_last (lk cy)) as [z|]; destruct Gr as [_ Gr]; rewrite Gr; peq; try rewrite E; try reflexivity.
    destruct (optr_eqb _ _); [reflexivity|reflexivity]. }
  destruct (Gd _ _ Eq) as (cq & Eq' & Dq' & Oq'). destruct (Gd _ _ Ed) as (cd & Ed' & Dd' & Od').
  refine (conj Hq0 (conj _ (conj _ (conj _ (conj _ (conj _ (conj _ _))))))).
  - unfold data_of. rewrite Eq'. cbn. rewrite Dq'. reflexivity.
  - rewrite Eq'. cbn. rewrite Oq'. reflexivity.
  - destruct Gr as (cy & Ey & Gr). unfold parent_of. destruct (l_last (lk cy)) as [z|]; destruct Gr as [_ Gr]; rewrite Gr, Pos.eqb_refl, Eq; reflexivity.
  - exists n, e, s, t0. unfold data_of. rewrite Ec, Ed'. cbn. rewrite Dc, Dd'. auto.
  - intros x Hx. destruct (Old x Hx) as (L0 & O0 & D0). rewrite <- O0, <- (Par x Hx).
    destruct (hget h x) as [cx|] eqn:Ex.
    + destruct (Gd _ _ Ex) as (c' & E' & D' & O'). refine (conj _ (conj _ _)).
      * rewrite E'. cbn. congruence.
      * unfold parent_of. rewrite Ex. destruct Gr as (cy & Ey & Gr). destruct (l_last (lk cy)) as [z|]; destruct Gr as [_ Gr]; rewrite Gr; peq; try congruence.
        -- rewrite Ex. reflexivity.
        -- destruct (optr_eqb _ _); rewrite Ex; reflexivity.
        -- rewrite Ex. reflexivity.
        -- rewrite Ex. reflexivity.
      * intro Hd. rewrite <- D0 by exact Hd. unfold data_of. rewrite Ex, E'. cbn. congruence.
    + pose proof (Gn x Ex) as E'. refine (conj _ (conj _ _)).
      * rewrite E'. reflexivity.
      * unfold parent_of. rewrite Ex, E'. reflexivity.
      * intro Hd. rewrite <- D0 by exact Hd. unfold data_of. rewrite Ex, E'. reflexivity.
  - intros cs Ch.
    assert (Ch' : children h dtd cs).
    { pose proof (forest_consistent _ _ _ FB) as C. eapply children_by_path; [exact C|exact Ed|reflexivity|].
      destruct Ch as (c' & E' & Pa & _ & _ & In'). rewrite Ec in E'. injection E' as <-. cbn [lk with_dat].
      eapply path_same; [exact Pa|]. intros x cx Hx Ex.
      assert (Hxq : x <> nxt h0) by congruence. destruct (Old x Hxq) as (L0 & _). rewrite Ex in L0. cbn in L0.
      destruct (hget h x) as [c'|]; [|discriminate]. exists c'. cbn in L0. injection L0 as ->. auto. }
    assert (Oc : only_children h dtd (cs ++ [nxt h0]) h').
    { refine (grown_children h h' dtd (nxt h0) cs _ Ch' (proj1 (proj2 (proj2 A))) _ NAh _ Gr).
      + eapply forest_consistent, FH'.
      + intro X. apply Hqd. congruence.
      + eapply kids_not_attr; eassumption. }
    destruct Oc as (Oc1 & Oc2 & _). split; [exact Oc1|]. intros y ks Hy Ny Cy.
    pose proof Cy as (cy & Ecy & Pa & _ & _ & _).
    assert (Hyq : y <> nxt h0) by congruence.
    pose proof (O y Hyq Hy) as Ey.
    apply Oc2; [exact Hy| |].
    + intros (cy' & Ey' & Hy'). apply Ny. exists cy'. split; [congruence|]. destruct Hy' as [Hy'|(r & cr & P & Er & Ar)]; [left; exact Hy'|].
      right. destruct (Pos.eq_dec r (nxt h0)) as [->|Hr]; [rewrite Eq in Er; injection Er as <-; destruct dq; cbn in *; try discriminate; contradiction|].
      destruct (Pos.eq_dec r dtd) as [->|Hrd]; [rewrite Ed in Er; injection Er as <-; discriminate|].
      exists r, cr. rewrite <- O by assumption. auto.
    + eapply children_by_path; [exact (forest_consistent _ _ _ FB)|rewrite Ey; exact Ecy| |].
      * destruct (is_attr (dat cy)) eqn:Ea; [|reflexivity]. exfalso. apply Ny. exists cy. auto.
      * eapply path_same; [exact Pa|]. intros x cx Hx Ex.
        assert (Hxq : x <> nxt h0) by congruence. destruct (Old x Hxq) as (L0 & _). rewrite Ex in L0. cbn in L0.
        destruct (hget h x) as [c'|]; [|discriminate]. exists c'. cbn in L0. injection L0 as ->. auto.
  - eauto.
Qed.

Lemma registered_old h0 h dtd t q dq oq p d : registered h0 h dtd t q dq oq -> data_of h0 p = Some d ->
  typeOf d <> DTDNode -> data_of h p = Some d.
Proof.
  intros (Hq & _ & _ & _ & (n & e & s & t0 & D0 & _) & O & _) E K. destruct (Pos.eq_dec p q) as [->|Hp].
  - unfold data_of in E. rewrite Hq in E. discriminate.
  - destruct (O p Hp) as (_ & _ & X). rewrite X; [exact E|]. intros ->. rewrite D0 in E. injection E as <-. apply K. reflexivity.
Qed.
Lemma tabs_registered h0 h dtd t q dq oq t1 : registered h0 h dtd t q dq oq -> tabs_ok h0 t1 -> tabs_ok h t1.
Proof.
  intros R (A & B & C & D). refine (conj _ (conj _ (conj _ _))); intros k p E.
  - destruct (A k p E) as (nm & pf & ty & ct & X & Y). exists nm, pf, ty, ct. split; [|exact Y]. eapply registered_old; [exact R|exact X|discriminate].
  - destruct (B k p E) as (el & nm & pf & ty & df & v & en & X & Y). exists el, nm, pf, ty, df, v, en. split; [|exact Y].
    eapply registered_old; [exact R|exact X|discriminate].
  - destruct (C k p E) as (ty & ex & sy & ct & og & X & Y). exists ty, ex, sy, ct, og. split; [|exact Y]. eapply registered_old; [exact R|exact X|discriminate].
  - destruct (D k p E) as (ty & ex & sy & ct & og & X & Y). exists ty, ex, sy, ct, og. split; [|exact Y]. eapply registered_old; [exact R|exact X|discriminate].
Qed.
Lemma registered_ok h0 h dtd t q dq oq t1 : dtd_ok h0 dtd t1 -> registered h0 h dtd t q dq oq -> tabs_ok h t ->
  typeOf dq <> DocumentNode -> is_attr dq = false -> dtd_ok h dtd t.
Proof.
  intros (_ & NA & ND & _ & (c & n & e & s & Ec & Dc & Oc)) R T Kd Ad. pose proof R as (Hq & Dq & Oq & Pq & (n' & e' & s' & t0 & D0 & D1) & O & _ & FG).
  assert (Hd : dtd <> q) by congruence.
  refine (conj FG (conj _ (conj _ (conj T _)))).
  - intros (cd & Ed & H). unfold data_of in D1. rewrite Ed in D1. injection D1 as D1. destruct H as [H|(r & cr & P & Er & A)]; [rewrite D1 in H; discriminate|].
    destruct (O dtd Hd) as (_ & Pp & _). unfold parent_of at 1 in Pp. rewrite Ed, P in Pp.
    assert (Dr : data_of h r = Some (dat cr)) by (unfold data_of; rewrite Er; reflexivity).
    destruct (Pos.eq_dec r q) as [->|Hr]; [rewrite Dq in Dr; injection Dr as Dr; congruence|].
    destruct (Pos.eq_dec r dtd) as [->|Hrd]; [rewrite Ed in Er; injection Er as <-; rewrite D1 in A; discriminate|].
    destruct (O r Hr) as (_ & _ & X). rewrite X in Dr by exact Hrd. apply NA. exists c. split; [exact Ec|]. right.
    unfold data_of in Dr. destruct (hget h0 r) as [c0|] eqn:E0; [|discriminate]. injection Dr as Dr. exists r, c0.
    unfold parent_of in Pp. rewrite Ec in Pp. refine (conj (eq_sym Pp) (conj E0 _)). rewrite Dr. exact A.
  - intros x Px. destruct (Pos.eq_dec x q) as [->|Hx]; [unfold kind; rewrite Dq; cbn; congruence|].
    destruct (O x Hx) as (_ & Pp & X). rewrite Pp in Px. destruct (Pos.eq_dec x dtd) as [->|Hxd]; [unfold kind; rewrite D1; discriminate|].
    unfold kind. rewrite X by exact Hxd. apply ND, Px.
  - unfold data_of in D1. destruct (hget h dtd) as [cd|] eqn:Ed; [|discriminate]. injection D1 as D1. exists cd, n', e', s'.
    refine (conj eq_refl (conj D1 _)). destruct (O dtd Hd) as (Oo & _). rewrite Ed, Ec in Oo. cbn in Oo. injection Oo as ->.
    destruct (owner c) as [d|]; [|exact I]. cbn in *. destruct Oc as (v & en & sa & i & x & Ex & Y). exists v, en, sa, i, x. split; [|exact Y].
    eapply registered_old; [exact R|exact Ex|discriminate].
Qed.

(* ---- running the table accesses ---- *)
Lemma getDtd_run h dtd t c n e s : hget h dtd = Some c -> dat c = DDtd n e s t -> getDtd dtd h = (Ret (n, e, s, t), h).
Proof. intros E D. unfold getDtd. rewrite (bind_getc _ _ _ _ E). cbv beta. rewrite D. reflexivity. Qed.
Lemma setTables_run h dtd t t' c n e s : hget h dtd = Some c -> dat c = DDtd n e s t ->
  setTables dtd t' h = (Ret tt, hset h dtd (with_dat (DDtd n e s t') c)).
Proof. intros E D. unfold setTables. erewrite hbind_ret; [|eapply getDtd_run; eassumption]. cbv beta iota. apply upd_run, E. Qed.
Lemma getDoc_run h d v e s i x : data_of h d = Some (DDoc v e s i x) -> getDoc d h = (Ret (v, e, s, i, x), h).
Proof. intro E. apply data_of_some in E as (c & E & D). unfold getDoc. rewrite (bind_getc _ _ _ _ E). cbv beta. rewrite D. reflexivity. Qed.

Lemma new_based h dtd c n e s t t' q dq oq : hok h -> hget h dtd = Some c -> dat c = DDtd n e s t -> q = nxt h ->
  based h (hset (with_new h {| lk := nolinks; owner := oq; dat := dq |}) dtd (with_dat (DDtd n e s t') c)) dtd t' q dq oq.
Proof.
  intros K E D ->. assert (Hd : nxt h <> dtd) by (intros <-; apply K in E; lia).
  split; [reflexivity|]. split; [reflexivity|]. rewrite hget_hset_other by congruence. rewrite hget_new, Pos.eqb_refl. split; [reflexivity|].
  split; [exists c, n, e, s, t; rewrite hget_hset_same; auto|].
  intros x H1 H2. rewrite hget_hset_other by congruence. rewrite hget_new. destruct (Pos.eqb_spec x (nxt h)); [contradiction|reflexivity].
Qed.
Lemma new_dtd h dtd c cell : hok h -> hget h dtd = Some c -> hget (with_new h cell) dtd = Some c.
Proof. intros K E. rewrite hget_new. destruct (Pos.eqb_spec dtd (nxt h)) as [->|]; [apply K in E; lia|exact E]. Qed.

Lemma dtd_hok h dtd t : dtd_ok h dtd t -> hok h.
Proof. intros ((F & G & FH) & _). exact (f_ok _ _ _ FH). Qed.

(* ---- AddEntity ---- *)
Definition ent_tables (typ : Z) (name : str) (q : ptr) (t : tables) : tables :=
  if typ <=? 3
  then {| t_attrs := t_attrs t; t_elems := t_elems t; t_ents := tput (t_ents t) name q; t_pents := t_pents t |}
  else {| t_attrs := t_attrs t; t_elems := t_elems t; t_ents := t_ents t; t_pents := tput (t_pents t) name q |}.
Lemma AddEntity_run h dtd t name typ pub sys ct : dtd_ok h dtd t -> 1 <= typ <= 5 ->
  exists q h' oq, AddEntity dtd name typ pub sys ct h = (Ret q, h') /\
    registered h h' dtd (ent_tables typ name q t) q (DEntity name typ pub sys ct []) oq /\
    option_map owner (hget h dtd) = Some oq /\ dtd_ok h' dtd (ent_tables typ name q t).
Proof.
  intros W Ht. pose proof W as (_ & _ & _ & T & (c & n & e & s & Ec & Dc & Oc)). pose proof (dtd_hok _ _ _ W) as K.
  exists (nxt h). unfold AddEntity. erewrite hbind_ret; [|eapply getDtd_run; eassumption]. cbv beta iota.
  assert (E6 : typ =? 6 = false) by lia. rewrite E6.
  assert (E5 : negb ((1 <=? typ) && (typ <=? 5)) = false) by (apply negb_false_iff, andb_true_iff; split; lia). rewrite E5.
  rewrite (bind_getc _ _ _ _ Ec). cbv beta. erewrite hbind_ret; [|apply alloc_run]. fold (with_new h {| lk := nolinks; owner := owner c; dat := DEntity name typ pub sys ct [] |}).
  erewrite hbind_ret; [|eapply setTables_run; [eapply new_dtd; eassumption|exact Dc]].
  fold (ent_tables typ name (nxt h) t).
  pose proof (new_based h dtd c n e s t (ent_tables typ name (nxt h) t) _ (DEntity name typ pub sys ct []) (owner c) K Ec Dc eq_refl) as B.
  destruct (based_register _ _ _ _ _ _ _ _ W B I eq_refl) as (h' & Rn & Rg); [discriminate|].
  exists h', (owner c). split; [erewrite hbind_ret; [reflexivity|apply hignore_ret, Rn]|]. split; [exact Rg|].
  split; [rewrite Ec; reflexivity|]. eapply registered_ok; [exact W|exact Rg| |discriminate|reflexivity].
  pose proof (tabs_registered _ _ _ _ _ _ _ _ Rg T) as (A1 & A2 & A3 & A4). pose proof Rg as (_ & Dq & _).
  unfold ent_tables. destruct (typ <=? 3) eqn:E3; refine (conj A1 (conj A2 (conj _ _))); cbn [t_ents t_pents]; try assumption;
    intros k p; rewrite tget_put; destruct (str_eqb_spec name k) as [->|]; try (intro X; injection X as <-; exists typ, pub, sys, ct, []; split; [exact Dq|lia]); auto.
Qed.
Lemma AddEntity_bad h dtd t name typ pub sys ct : dtd_ok h dtd t -> ~ (1 <= typ <= 5) -> exists e, AddEntity dtd name typ pub sys ct h = (Fail e, h).
Proof.
  intros W Ht. pose proof W as (_ & _ & _ & T & (c & n & e & s & Ec & Dc & Oc)). unfold AddEntity.
  erewrite hbind_ret; [|eapply getDtd_run; eassumption]. cbv beta iota. destruct (typ =? 6); [eexists; reflexivity|].
  assert (E5 : negb ((1 <=? typ) && (typ <=? 5)) = true) by (apply negb_true_iff, andb_false_iff; lia). rewrite E5. eexists. reflexivity.
Qed.

(* ---- AddElementDecl ---- *)
Definition content_fits (typ : Z) (content : option econt) : Prop :=
  match content with
  | None => typ = EmptyElementType \/ typ = AnyElementType
  | Some _ => typ = MixedElementType \/ typ = ElementElementType
  end.
Lemma copy_id : forall e, copyElementContent e = e.
Proof.
  fix IH 1. intros [ct oc nm pf c1 c2]. cbn [copyElementContent].
  destruct c1 as [x|]; destruct c2 as [y|]; rewrite ?IH; reflexivity.
Qed.
Lemma content_check typ content h : exists r,
  (if (typ =? EmptyElementType) || (typ =? AnyElementType) then
     match content with Some _ => hfail "content must be nil for EMPTY/ANY elements"%string | None => hret tt end
   else if (typ =? MixedElementType) || (typ =? ElementElementType) then
     match content with None => hfail "content must be non-nil for MIXED/ELEMENT elements"%string | Some _ => hret tt end
   else hfail "invalid ElementContent"%string) h = (r, h) /\
  (content_fits typ content -> r = Ret tt) /\ (~ content_fits typ content -> exists e, r = Fail e).
Proof.
  unfold content_fits, EmptyElementType, AnyElementType, MixedElementType, ElementElementType.
  destruct ((typ =? 1) || (typ =? 2)) eqn:E1; [|destruct ((typ =? 3) || (typ =? 4)) eqn:E2];
    destruct content; eexists; (split; [reflexivity|]); split; intro H; try reflexivity; try (eexists; reflexivity);
    exfalso; try apply H; lia.
Qed.
Lemma hbind_seq {A} (m : HM unit) (k : HM A) h h' r : m h = (r, h') -> (forall u, r = Ret u -> k h' = k h') ->
  (m ;; k) h = match r with Ret _ => k h' | Fail e => (Fail e, h') | Pan => (Pan, h') | Oof => (Oof, h') end.
Proof. intros E _. unfold hbind. rewrite E. destruct r; reflexivity. Qed.

Section element.
Variables (h : heap) (dtd : ptr) (t : tables).
Hypothesis W : dtd_ok h dtd t.
Variables (name local prefix : str) (typ : Z) (content : option econt).
Hypothesis PL : prefix_local name = (prefix, local).

Lemma AddElementDecl_unfit : ~ content_fits typ content -> exists e, AddElementDecl dtd name typ content h = (Fail e, h).
Proof.
  intro NF. pose proof W as (_ & _ & _ & T & (c & n & e & s & Ec & Dc & Oc)). unfold AddElementDecl.
  erewrite hbind_ret; [|eapply getDtd_run; eassumption]. destruct (content_check typ content h) as (r & R & _ & X).
  destruct (X NF) as (e' & ->). exists e'. apply hbind_fail. exact R.
Qed.
Lemma subset_check c : hget h dtd = Some c -> owner_ok h dtd (owner c) ->
  match owner c with
  | None => hret tt
  | Some d =>
      x <- getDoc d ;;
      match x with
      | (_, _, _, Some i, _) =>
          y <- getDtd i ;;
          match tget (t_elems (snd y)) (elem_key local prefix) with
          | Some e =>
              t <- declType e ;;
              if t =? UndefinedElementType
              then setTables i (with_elems (tdel (t_elems (snd y)) (elem_key local prefix)) (snd y))
              else hret tt
          | None => hret tt
          end
      | _ => hret tt
      end
  end h = (Ret tt, h).
Proof.
  intros Ec Oc. pose proof W as (_ & _ & _ & T & (c' & n & e & s & Ec' & Dc & _)). rewrite Ec in Ec'. injection Ec' as <-.
  destruct (owner c) as [d|]; [|reflexivity]. destruct Oc as (v & en & sa & i & x & Dd & Hi).
  erewrite hbind_ret; [|eapply getDoc_run; eassumption]. cbv beta iota. destruct Hi as [->|[-> _]]; [reflexivity|].
  erewrite hbind_ret; [|eapply getDtd_run; eassumption]. cbv beta iota. cbn [snd].
  destruct (tget (t_elems t) (elem_key local prefix)) as [q|] eqn:Eq; [|reflexivity].
  destruct T as (A & _). destruct (A _ _ Eq) as (nm & pf & ty & ct & Dq & _ & Hty & _). apply data_of_some in Dq as (cq & Ecq & Dq).
  unfold declType. erewrite hbind_ret; [|rewrite (bind_getc _ _ _ _ Ecq); cbv beta; rewrite Dq; reflexivity]. cbv beta.
  apply Z.eqb_neq in Hty. rewrite Hty. reflexivity.
Qed.
Lemma AddElementDecl_again q : content_fits typ content -> tget (t_elems t) (elem_key local prefix) = Some q ->
  exists e, AddElementDecl dtd name typ content h = (Fail e, h).
Proof.
  intros Ft Eq. pose proof W as (_ & _ & _ & T & (c & n & e & s & Ec & Dc & Oc)). unfold AddElementDecl.
  erewrite hbind_ret; [|eapply getDtd_run; eassumption]. destruct (content_check typ content h) as (r & R & X & _).
  rewrite (X Ft) in R. rewrite (hbind_ret _ _ _ _ _ R). rewrite PL. cbv beta iota zeta. rewrite (bind_getc _ _ _ _ Ec). cbv beta.
  rewrite (hbind_ret _ _ _ _ _ (subset_check c Ec Oc)).
  erewrite hbind_ret; [|eapply getDtd_run; eassumption]. cbv beta iota. cbn [snd]. rewrite Eq.
  destruct T as (A & _). destruct (A _ _ Eq) as (nm & pf & ty & ct & Dq & _ & Hty & _). apply data_of_some in Dq as (cq & Ecq & Dq).
  apply Z.eqb_neq in Hty. eexists. apply hbind_fail. unfold declType.
  erewrite hbind_ret; [|rewrite (bind_getc _ _ _ _ Ecq); cbv beta; rewrite Dq; reflexivity]. cbv beta. rewrite Hty. reflexivity.
Qed.
Lemma AddElementDecl_new : content_fits typ content -> tget (t_elems t) (elem_key local prefix) = None ->
  exists q h' oq, AddElementDecl dtd name typ content h = (Ret q, h') /\
    registered h h' dtd (with_elems (tput (t_elems t) (elem_key local prefix) q) t) q (DElemDecl local prefix typ content) oq /\
    option_map owner (hget h dtd) = Some oq /\ dtd_ok h' dtd (with_elems (tput (t_elems t) (elem_key local prefix) q) t).
Proof.
  intros Ft Eq. pose proof W as (_ & _ & _ & T & (c & n & e & s & Ec & Dc & Oc)). pose proof (dtd_hok _ _ _ W) as K. exists (nxt h).
  set (t' := with_elems (tput (t_elems t) (elem_key local prefix) (nxt h)) t).
  unfold AddElementDecl.
  erewrite hbind_ret; [|eapply getDtd_run; eassumption]. destruct (content_check typ content h) as (r & R & X & _).
  rewrite (X Ft) in R. rewrite (hbind_ret _ _ _ _ _ R). rewrite PL. cbv beta iota zeta. rewrite (bind_getc _ _ _ _ Ec). cbv beta.
  rewrite (hbind_ret _ _ _ _ _ (subset_check c Ec Oc)).
  erewrite hbind_ret; [|eapply getDtd_run; eassumption]. cbv beta iota. cbn [snd]. rewrite Eq.
  assert (Hd : nxt h <> dtd) by (intro E0; rewrite <- E0 in Ec; apply K in Ec; lia).
  erewrite hbind_ret.
  2:{ erewrite hbind_ret; [|apply alloc_run]. fold (with_new h {| lk := nolinks; owner := None; dat := DElemDecl local prefix UndefinedElementType None |}).
      erewrite hbind_ret; [reflexivity|]. eapply setTables_run; [eapply new_dtd; eassumption|exact Dc]. }
  fold t'. set (h2 := hset (with_new h _) dtd _).
  assert (E2 : hget h2 (nxt h) = Some {| lk := nolinks; owner := None; dat := DElemDecl local prefix UndefinedElementType None |}).
  { unfold h2. rewrite hget_hset_other by congruence. rewrite hget_new, Pos.eqb_refl. reflexivity. }
  rewrite (bind_getc _ _ _ _ E2). cbv beta. cbn [dat].
  assert (Cc : match content with Some e0 => Some (copyElementContent e0) | None => None end = content) by (destruct content; [rewrite copy_id|]; reflexivity).
  rewrite Cc. unfold setData, setOwner. rewrite (bind_upd _ _ _ _ _ E2). set (h3 := hset h2 (nxt h) _).
  assert (E3 : hget h3 (nxt h) = Some {| lk := nolinks; owner := None; dat := DElemDecl local prefix typ content |}) by (unfold h3; rewrite hget_hset_same; reflexivity).
  rewrite (bind_upd _ _ _ _ _ E3). set (h4 := hset h3 (nxt h) _).
  assert (B : based h h4 dtd t' (nxt h) (DElemDecl local prefix typ content) (owner c)).
  { split; [reflexivity|]. split; [reflexivity|]. unfold h4. rewrite hget_hset_same. split; [reflexivity|]. unfold h3, h2. split.
    - exists c, n, e, s, t. do 2 (rewrite hget_hset_other by congruence). rewrite hget_hset_same. auto.
    - intros x H1 H2. rewrite !hget_hset_other by congruence. rewrite hget_new. destruct (Pos.eqb_spec x (nxt h)); [contradiction|reflexivity]. }
  destruct (based_register _ _ _ _ _ _ _ _ W B I eq_refl) as (h' & Rn & Rg); [discriminate|].
  exists h', (owner c). split; [erewrite hbind_ret; [reflexivity|exact Rn]|]. split; [exact Rg|]. split; [rewrite Ec; reflexivity|].
  eapply registered_ok; [exact W|exact Rg| |discriminate|reflexivity].
  pose proof (tabs_registered _ _ _ _ _ _ _ _ Rg T) as (A1 & A2 & A3 & A4). pose proof Rg as (_ & Dq & _).
  refine (conj _ (conj A2 (conj A3 A4))). unfold t'. cbn [t_elems with_elems]. intros k p. rewrite tget_put.
  destruct (str_eqb_spec (elem_key local prefix) k) as [<-|]; [|apply A1]. intro Y. injection Y as <-.
  exists local, prefix, typ, content. refine (conj Dq (conj eq_refl (conj _ _))).
  - unfold content_fits, EmptyElementType, AnyElementType, MixedElementType, ElementElementType, UndefinedElementType in *. destruct content; lia.
  - eapply prefix_no_colon; exact PL.
Qed.
End element.

(* ---- attribute declarations ---- *)
Section attribute.
Variables (h : heap) (dtd : ptr) (t : tables).
Hypothesis W : dtd_ok h dtd t.
Variables (elem name prefix : str) (atype def : Z) (value : str) (enum : list str).
Let dq := DAttrDecl elem name prefix atype def value enum.

Lemma addAttributeDecl_bad : ~ (1 <= atype <= 10) -> exists e, addAttributeDecl (Some dtd) elem name prefix atype def value enum h = (Fail e, h).
Proof.
  intro H. unfold addAttributeDecl. assert (E : negb ((1 <=? atype) && (atype <=? 10)) = true) by (apply negb_true_iff, andb_false_iff; lia).
  rewrite E. eexists. reflexivity.
Qed.
Lemma attr_subset_check c : hget h dtd = Some c -> owner_ok h dtd (owner c) ->
  match owner c with
  | None => hret tt
  | Some d =>
      x <- getDoc d ;;
      match x with
      | (_, _, _, Some i, ext) =>
          y <- getDtd i ;;
          if optr_eqb ext (Some dtd) && (match t_attrs (snd y) with [] => true | _ => false end) then
            o <- LookupAttribute dtd name prefix elem ;;
            match o with
            | None => hfail "already defined in internal subset"%string
            | Some _ => hret tt
            end
          else hret tt
      | _ => hret tt
      end
  end h = (Ret tt, h).
Proof.
  intros Ec Oc. pose proof W as (_ & _ & _ & T & (c' & n & e & s & Ec' & Dc & _)). rewrite Ec in Ec'. injection Ec' as <-.
  destruct (owner c) as [d|]; [|reflexivity]. destruct Oc as (v & en & sa & i & x & Dd & Hi).
  erewrite hbind_ret; [|eapply getDoc_run; eassumption]. cbv beta iota. destruct Hi as [->|[-> Hx]]; [reflexivity|].
  erewrite hbind_ret; [|eapply getDtd_run; eassumption]. cbv beta iota. rewrite optr_eqb_neq by exact Hx. reflexivity.
Qed.
Lemma addAttributeDecl_again q : 1 <= atype <= 10 -> tget (t_attrs t) (attr_key name prefix elem) = Some q ->
  exists e h', addAttributeDecl (Some dtd) elem name prefix atype def value enum h = (Fail e, h') /\
    (forall x c, hget h x = Some c -> hget h' x = Some c) /\ dtd_ok h' dtd t.
Proof.
  intros Ha Eq. pose proof W as (FG & NA & ND & T & (c & n & e & s & Ec & Dc & Oc)). pose proof (dtd_hok _ _ _ W) as K. unfold addAttributeDecl.
  assert (E : negb ((1 <=? atype) && (atype <=? 10)) = false) by (apply negb_false_iff, andb_true_iff; lia). rewrite E.
  rewrite (bind_getc _ _ _ _ Ec). cbv beta. rewrite (hbind_ret _ _ _ _ _ (attr_subset_check c Ec Oc)).
  erewrite hbind_ret; [|apply alloc_run]. fold dq. fold (with_new h {| lk := nolinks; owner := owner c; dat := dq |}). set (h1 := with_new h _).
  assert (Old : forall x c, hget h x = Some c -> hget h1 x = Some c).
  { intros x cx Ex. unfold h1. rewrite hget_new. destruct (Pos.eqb_spec x (nxt h)) as [->|]; [apply K in Ex; lia|exact Ex]. }
  eexists _, h1. split.
  - apply hbind_fail. unfold RegisterAttribute. erewrite bind_getc; [|unfold h1; rewrite hget_new, Pos.eqb_refl; reflexivity]. cbv beta. cbn [dat]. unfold dq.
    erewrite hbind_ret; [|eapply getDtd_run; [apply Old, Ec|exact Dc]]. cbv beta. cbn [snd]. rewrite Eq. reflexivity.
  - split; [exact Old|].
    assert (Oldd : forall x d, data_of h x = Some d -> data_of h1 x = Some d).
    { intros x d E0. apply data_of_some in E0 as (cx & Ex & <-). unfold data_of. rewrite (Old _ _ Ex). reflexivity. }
    assert (New : forall x cx, hget h1 x = Some cx -> x <> nxt h -> hget h x = Some cx).
    { intros x cx Ex Hx. unfold h1 in Ex. rewrite hget_new in Ex. destruct (Pos.eqb_spec x (nxt h)); [contradiction|exact Ex]. }
    assert (Hn : forall cx, hget h1 (nxt h) = Some cx -> cx = {| lk := nolinks; owner := owner c; dat := dq |}).
    { intros cx Ex. unfold h1 in Ex. rewrite hget_new, Pos.eqb_refl in Ex. congruence. }
    refine (conj _ (conj _ (conj _ (conj _ _)))).
    + destruct FG as (F & G & FH). eexists _, _. apply (forest_new _ _ _ (owner c) dq FH I).
    + intros (cd & Ed & H). rewrite (Old _ _ Ec) in Ed. injection Ed as <-. apply NA. exists c. split; [exact Ec|].
      destruct H as [H|(r & cr & P & Er & A)]; [left; exact H|]. right. exists r, cr. refine (conj P (conj _ A)).
      apply New; [exact Er|]. intros ->. apply Hn in Er. subst cr. discriminate.
    + intros x Px. unfold parent_of in Px. destruct (hget h1 x) as [cx|] eqn:Ex; [|discriminate].
      destruct (Pos.eq_dec x (nxt h)) as [->|Hx]; [apply Hn in Ex; subst cx; discriminate|].
      rewrite (kind_some _ _ _ Ex). pose proof (New _ _ Ex Hx) as E0. rewrite <- (kind_some _ _ _ E0). apply ND. unfold parent_of. rewrite E0. exact Px.
    + destruct T as (A1 & A2 & A3 & A4). refine (conj _ (conj _ (conj _ _))); intros k p Ep.
      * destruct (A1 k p Ep) as (nm & pf & ty & ct & X & Y). exists nm, pf, ty, ct. auto.
      * destruct (A2 k p Ep) as (el & nm & pf & ty & df & v & en & X & Y). exists el, nm, pf, ty, df, v, en. auto.
      * destruct (A3 k p Ep) as (ty & ex & sy & ct & og & X & Y). exists ty, ex, sy, ct, og. auto.
      * destruct (A4 k p Ep) as (ty & ex & sy & ct & og & X & Y). exists ty, ex, sy, ct, og. auto.
    + exists c, n, e, s. refine (conj (Old _ _ Ec) (conj Dc _)). destruct (owner c) as [d|]; [|exact I].
      destruct Oc as (v & en & sa & i & x & Dd & Hi). exists v, en, sa, i, x. auto.
Qed.
Lemma addAttributeDecl_new : 1 <= atype <= 10 -> tget (t_attrs t) (attr_key name prefix elem) = None ->
  exists q h' oq, addAttributeDecl (Some dtd) elem name prefix atype def value enum h = (Ret q, h') /\
    registered h h' dtd (with_attrs (tput (t_attrs t) (attr_key name prefix elem) q) t) q dq oq /\
    option_map owner (hget h dtd) = Some oq /\ dtd_ok h' dtd (with_attrs (tput (t_attrs t) (attr_key name prefix elem) q) t).
Proof.
  intros Ha Eq. pose proof W as (FG & NA & ND & T & (c & n & e & s & Ec & Dc & Oc)). pose proof (dtd_hok _ _ _ W) as K. exists (nxt h).
  set (t' := with_attrs _ t). unfold addAttributeDecl.
  assert (E : negb ((1 <=? atype) && (atype <=? 10)) = false) by (apply negb_false_iff, andb_true_iff; lia). rewrite E.
  rewrite (bind_getc _ _ _ _ Ec). cbv beta. rewrite (hbind_ret _ _ _ _ _ (attr_subset_check c Ec Oc)).
  erewrite hbind_ret; [|apply alloc_run]. fold dq. fold (with_new h {| lk := nolinks; owner := owner c; dat := dq |}).
  pose proof (new_based h dtd c n e s t t' _ dq (owner c) K Ec Dc eq_refl) as B.
  destruct (based_register _ _ _ _ _ _ _ _ W B I eq_refl) as (h' & Rn & Rg); [discriminate|].
  exists h', (owner c). split.
  - erewrite hbind_ret.
    2:{ unfold RegisterAttribute. erewrite bind_getc; [|rewrite hget_new, Pos.eqb_refl; reflexivity]. cbv beta. cbn [dat]. unfold dq at 1.
        erewrite hbind_ret; [|eapply getDtd_run; [eapply new_dtd; eassumption|exact Dc]]. cbv beta. cbn [snd]. rewrite Eq.
        eapply setTables_run; [eapply new_dtd; eassumption|exact Dc]. }
    fold t'. erewrite hbind_ret; [reflexivity|apply hignore_ret, Rn].
  - split; [exact Rg|]. split; [rewrite Ec; reflexivity|]. eapply registered_ok; [exact W|exact Rg| |discriminate|reflexivity].
    pose proof (tabs_registered _ _ _ _ _ _ _ _ Rg T) as (A1 & A2 & A3 & A4). pose proof Rg as (_ & Dq & _).
    refine (conj A1 (conj _ (conj A3 A4))). unfold t'. cbn [t_attrs with_attrs]. intros k p. rewrite tget_put.
    destruct (str_eqb_spec (attr_key name prefix elem) k) as [<-|]; [|apply A2]. intro Y. injection Y as <-.
    exists elem, name, prefix, atype, def, value, enum. auto.
Qed.
End attribute.

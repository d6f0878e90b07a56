(* Start tags: the element with its namespaces and attributes. *)
From Coq Require Import FMapPositive Permutation.
From Verif Require Import Base Utf8 Utf8Proofs Escape Scan Parser Heap TreeBuilder TreeShape TreeOps Forest ForestOps ForestAdd
  ForestAttr History TreeCalls Xml Mirror XmlBuild XmlSteps.

(* the element e under construction, not attached yet *)
Record dressed (h0 : heap) (e : ptr) (nm : str) (sp : option nspair) (defs : list nspair) (A : list ptr) (l : list (str * str)) (h : heap) : Prop := {
  dr_wf : wf h;
  dr_ok : hok h0;
  dr_ext : extends h0 h;
  dr_e : e = nxt h0;
  dr_lt : (e < nxt h)%positive;
  dr_cell : exists c props, hget h e = Some c /\ lk c = nolinks /\ dat c = DElem nm sp defs props /\ path h props A;
  dr_atts : Forall2 (att_in h (Pos.succ e) (nxt h)) A l }.

Lemma dressed_new h o nm : wf h ->
  exists h', CreateElement o nm h = (Ret (nxt h), h') /\ dressed h (nxt h) nm None [] [] [] h'.
Proof.
  intros W. destruct (new_node h o (DElem nm None [] None) W eq_refl) as (W1 & X1 & N1 & E1).
  eexists. split; [reflexivity|]. constructor; [exact W1|exact (wf_ok _ W)|exact X1|reflexivity|cbn [nxt]; lia| |constructor].
  eexists _, None. refine (conj E1 (conj eq_refl (conj eq_refl _))). constructor.
Qed.

(* replacing the namespaces of e *)
Lemma dressed_redata h0 e nm sp defs A l h sp' defs' props c :
  dressed h0 e nm sp defs A l h -> hget h e = Some c -> dat c = DElem nm sp defs props ->
  exists h', setData e (DElem nm sp' defs' props) h = (Ret tt, h') /\ dressed h0 e nm sp' defs' A l h'.
Proof.
  intros [W Ok X E Lt (c0 & props0 & Ec & Lc & Dc & P) At] Ec' Dc'. rewrite Ec in Ec'. injection Ec' as <-.
  rewrite Dc in Dc'. injection Dc' as <-.
  destruct (redata_run h e c0 (DElem nm sp' defs' props0) Ec) as (h' & R & [Rn Rd]). exists h'. split; [exact R|].
  destruct W as (F & G & FH).
  assert (Ne : forall x, x <> e -> hget h' x = hget h x) by (intros x Hx; rewrite Rd; peq; [contradiction|reflexivity]).
  assert (Ein : forall a, In a A -> a <> e).
  { intros a Ha. apply (atts_in_within _ _ _ _ _ At) in Ha. unfold within in Ha. lia. }
  constructor.
  - exists F, G. eapply forest_similar; [|exact FH]. eapply similar_redata; [exact Ec| |split; [exact Rn|exact Rd]].
    rewrite Dc. reflexivity.
  - exact Ok.
  - destruct X as [X1 X2]. split; [rewrite Rn; exact X1|]. intros x cx Ex. rewrite Ne; [apply X2, Ex|].
    intros ->. subst e. rewrite (hok_free _ Ok) in Ex. discriminate.
  - exact E.
  - rewrite Rn. exact Lt.
  - exists (with_dat (DElem nm sp' defs' props0) c0), props0. split; [rewrite Rd, Pos.eqb_refl, Ec; reflexivity|].
    refine (conj Lc (conj eq_refl _)). eapply path_frame; [exact P|]. intros x cx Hx Ex. rewrite (Ne x); [exact Ex|apply Ein, Hx].
  - rewrite Rn. eapply atts_in_frame; [|exact At]. intros q cq Hq Eq. rewrite (Ne q); [exact Eq|]. unfold within in Hq. lia.
Qed.
Lemma dressed_space h0 e nm sp defs A l h prefix uri : dressed h0 e nm sp defs A l h ->
  exists h', (match uri with [] => hret tt | _ => SetNamespace e prefix uri true end) h = (Ret tt, h') /\
    dressed h0 e nm (match uri with [] => sp | _ => Some (prefix, uri) end) defs A l h'.
Proof.
  intros D. destruct uri as [|b u]; [exists h; split; [reflexivity|exact D]|].
  destruct (dr_cell _ _ _ _ _ _ _ _ D) as (c & props & Ec & Lc & Dc & P).
  unfold SetNamespace. rewrite (bind_getc _ _ _ _ Ec). cbv beta. rewrite Dc.
  eapply dressed_redata; eassumption.
Qed.
Lemma dressed_defs h0 e nm sp A l ns : forall defs h, dressed h0 e nm sp defs A l h ->
  exists h', setNamespaces e (map Some ns) h = (Ret tt, h') /\ dressed h0 e nm sp (defs ++ ns) A l h'.
Proof.
  induction ns as [|[p u] ns IH]; intros defs h D; cbn [map setNamespaces].
  - exists h. rewrite app_nil_r. split; [reflexivity|exact D].
  - destruct (dr_cell _ _ _ _ _ _ _ _ D) as (c & props & Ec & Lc & Dc & P).
    destruct (dressed_redata _ _ _ _ _ _ _ _ sp (defs ++ [(p, u)]) _ _ D Ec Dc) as (h1 & R & D1).
    assert (R1 : SetNamespace e p u false h = (Ret tt, h1)).
    { unfold SetNamespace. rewrite (bind_getc _ _ _ _ Ec). cbv beta. rewrite Dc. exact R. }
    rewrite (hbind_ret _ _ _ _ _ R1). cbv beta. destruct (IH _ _ D1) as (h2 & R2 & D2). exists h2. split; [exact R2|].
    rewrite <- app_assoc in D2. exact D2.
Qed.

(* one attribute *)
Lemma att_in_named h lo hi A l : Forall2 (att_in h lo hi) A l -> forall x nm, In x A -> attr_named h nm x -> In nm (map fst l).
Proof.
  induction 1 as [|a y A l H1 H2 IH]; intros x nm Hx Hn; [destruct Hx|]. destruct Hx as [<-|Hx]; [|right; eauto].
  left. destruct Hn as (c & df & E & D). destruct H1 as [a c0 nm0 df0 W E0 D0 L|a c0 nm0 df0 t ct v W E0 D0 L W2 Et Dt Lt];
    rewrite E in E0; injection E0 as <-; rewrite D in D0; injection D0 as <- _; reflexivity.
Qed.
Lemma att_in_same h h' lo hi lo' hi' A l : (lo' <= lo)%positive -> (hi <= hi')%positive ->
  (forall x c, within lo hi x -> hget h x = Some c ->
     exists c', hget h' x = Some c' /\ dat c' = dat c /\ l_first (lk c') = l_first (lk c) /\ (is_attr (dat c) = false -> c' = c)) ->
  Forall2 (att_in h lo hi) A l -> Forall2 (att_in h' lo' hi') A l.
Proof.
  intros Hl Hh S. induction 1 as [|a y A l H1 H2 IH]; constructor; [|exact IH].
  destruct H1 as [a c0 nm0 df0 W E0 D0 L|a c0 nm0 df0 t ct v W E0 D0 L W2 Et Dt Lt].
  - destruct (S _ _ W E0) as (c' & E' & D' & L' & _). eapply ai_empty; [unfold within in *; lia|exact E'|rewrite D'; exact D0|rewrite L'; exact L].
  - destruct (S _ _ W E0) as (c' & E' & D' & L' & _). destruct (S _ _ W2 Et) as (c2 & E2 & D2 & L2 & Q2).
    rewrite Dt in Q2. specialize (Q2 eq_refl). subst c2.
    eapply ai_text; [unfold within in *; lia|exact E'|rewrite D'; exact D0|rewrite L'; exact L|unfold within in *; lia|exact E2|exact Dt|exact Lt].
Qed.

Lemma amp_valid rs : Forall (fun r => valid_rune r = true) rs -> Forall (fun r => valid_rune r = true) (ampesc rs).
Proof.
  induction 1 as [|r rs H1 H2 IH]; [constructor|]. unfold ampesc. cbn [flat_map]. apply Forall_app. split; [|exact IH].
  unfold amp. destruct (r =? 38); [repeat constructor|constructor; [exact H1|constructor]].
Qed.
Lemma runes_amp rs : Forall (fun r => valid_rune r = true) (ampesc rs) -> XmlSpec.decodes (runes_of (utf8 (ampesc rs))) rs.
Proof. intros V. rewrite runes_of_utf8 by exact V. apply decodes_amp. Qed.
Lemma ampesc_nil rs : utf8 (ampesc rs) = [] <-> rs = [].
Proof.
  rewrite utf8_nil. destruct rs as [|r rs]; [tauto|]. unfold ampesc. cbn [flat_map]. unfold amp.
  destruct (r =? 38); cbn; split; discriminate.
Qed.
Lemma ampesc_length rs : (List.length rs <= List.length (utf8 (ampesc rs)))%nat.
Proof.
  induction rs as [|r rs IH]; [cbn; lia|]. unfold ampesc. cbn [flat_map]. fold (ampesc rs).
  unfold utf8 in *. rewrite flat_map_app, app_length. cbn [List.length].
  assert (1 <= List.length (flat_map encode_rune (amp r)))%nat; [|lia].
  unfold amp. destruct (r =? 38); [vm_compute; lia|]. cbn [flat_map]. rewrite app_nil_r.
  pose proof (encode_nonempty r). destruct (encode_rune r); [contradiction|cbn; lia].
Qed.

Lemma dressed_attr n h0 e nm sp defs A l h name rs :
  dressed h0 e nm sp defs A l h -> Forall (fun r => valid_rune r = true) rs -> ~ In name (map fst l) ->
  (List.length rs < n)%nat ->
  exists h' a, SetAttribute n e name (utf8 (ampesc rs)) h = (Ret tt, h') /\
    dressed h0 e nm sp defs (A ++ [a]) (l ++ [(name, utf8 rs)]) h'.
Proof.
  intros [W Ok X E Lt (c0 & props0 & Ec & Lc & Dc & P) At] Vr Nn Ln. pose proof W as (F & G & FH).
  assert (Te : typeOf (dat c0) = ElementNode) by (rewrite Dc; reflexivity).
  destruct (SetAttribute_forest n h F G e c0 name (utf8 (ampesc rs)) rs FH Ec Te (runes_amp _ (amp_valid _ Vr)) (ampesc_nil rs) Ln)
    as (r & h' & R & Ef & F' & G' & FH').
  pose proof (f_ok _ _ _ FH) as Hk.
  assert (PA : forall A' k par pv nx, linked h par pv nx (N e A' k) -> map fst A' = A).
  { intros A' k par pv nx L. apply linked_eq in L as [(c & M1 & M2 & M3) _]. rewrite Ec in M1. injection M1 as <-.
    rewrite Dc in M3. cbn [props_ok] in M3. destruct M3 as [Ep Ac]. pose proof (achain_path _ _ _ Ac) as P2.
    rewrite <- Ep in P2. exact (path_fun _ _ _ P2 _ P). }
  destruct Ef as [o A' k par pv nx a ks h1 h' L M Ad Nn'|o A' k par pv nx a ks x h' L M Hx Hn].
  2:{ exfalso. rewrite (PA _ _ _ _ _ L) in Hx. apply Nn. eapply att_in_named; eassumption. }
  rewrite (PA _ _ _ _ _ L) in Ad. clear PA L Nn' A' k par pv nx.
  exists h', a. split; [exact R|].
  assert (Old : forall x c, hget h x = Some c -> hget h1 x = Some c).
  { intros x c Ex. rewrite (made_old _ _ _ _ _ _ _ x M (Hk _ _ Ex)). exact Ex. }
  assert (Ea : a = nxt h) by exact (proj1 M).
  assert (Nx : (nxt h < nxt h')%positive /\ nxt h' = nxt h1).
  { split; [|exact (proj1 Ad)]. rewrite (proj1 Ad). destruct M as [_ M]. destruct (utf8 rs); destruct M as (_ & -> & _); lia. }
  assert (Ca : exists ca, hget h1 a = Some ca /\ dat ca = DAttr name false /\ l_next (lk ca) = None /\
           ((l_first (lk ca) = None /\ utf8 rs = []) \/
            exists ct, l_first (lk ca) = Some (Pos.succ a) /\ hget h1 (Pos.succ a) = Some ct /\ dat ct = DText (utf8 rs) /\
                       l_next (lk ct) = None /\ (Pos.succ a < nxt h1)%positive)).
  { destruct M as [_ M]. destruct (utf8 rs) as [|b bs] eqn:Eu.
    - destruct M as (-> & Mn & M). eexists. split; [rewrite M, Pos.eqb_refl; reflexivity|]. cbn. auto.
    - destruct M as (-> & Mn & M). eexists. split; [rewrite M, Pos.eqb_refl; reflexivity|]. cbn.
      refine (conj eq_refl (conj eq_refl (or_intror _))). eexists. split; [reflexivity|]. split.
      { rewrite M, Pos.eqb_refl. destruct (Pos.eqb_spec (Pos.succ a) a); [lia|reflexivity]. }
      cbn. repeat split. rewrite Mn. lia. }
  destruct Ca as (ca & Ea1 & Da & Na & Va).
  assert (Wn : forall x, In x A -> within (Pos.succ e) (nxt h) x) by (apply (atts_in_within _ _ _ _ _ At)).
  assert (Live : forall x, In x A -> exists c nm df, hget h x = Some c /\ dat c = DAttr nm df).
  { clear - At. induction At as [|a y A l H1 H2 IH]; intros x Hx; [destruct Hx|]. destruct Hx as [<-|Hx]; [|eauto].
    destruct H1; eauto. }
  assert (Ae : a <> e) by lia.
  (* every cell of h1 but e keeps its data and first child; text cells stay *)
  assert (St : forall x c, x <> e -> hget h1 x = Some c ->
     exists c', hget h' x = Some c' /\ dat c' = dat c /\ l_first (lk c') = l_first (lk c) /\ (is_attr (dat c) = false -> c' = c) /\
       (lasto A <> Some x -> l_next (lk c') = l_next (lk c)) /\ (x <> a -> lasto A <> Some x -> c' = c)).
  { intros x c Hx Ex. destruct Ad as [_ Ad]. destruct (lasto A) as [z|] eqn:Z.
    - rewrite Ad. destruct (Pos.eqb_spec x a) as [->|Xa].
      + rewrite Ex. cbn. eexists. split; [reflexivity|]. cbn. rewrite Ea1 in Ex. injection Ex as <-. rewrite Da. cbn.
        repeat split; try discriminate; try congruence.
      + destruct (Pos.eqb_spec x z) as [->|Xz].
        * rewrite Ex. cbn. eexists. split; [reflexivity|]. cbn. repeat split; try congruence.
          intros Hat. exfalso. apply lasto_some_in in Z. destruct (Live z Z) as (c1 & nm1 & df1 & E1 & D1).
          rewrite (Old _ _ E1) in Ex. injection Ex as <-. rewrite D1 in Hat. discriminate.
        * exists c. repeat split; try assumption; auto.
    - destruct Ad as (c1 & nm1 & ns1 & d1 & E1 & D1 & Ad). rewrite Ad. destruct (Pos.eqb_spec x e); [contradiction|].
      exists c. repeat split; try assumption; auto. }
  constructor.
  - exists F', G'. exact FH'.
  - exact Ok.
  - destruct X as [X1 X2]. split; [lia|]. intros x c Ex. apply X2 in Ex as Ey.
    assert (Xe : x <> e) by (intros ->; subst e; rewrite (hok_free _ Ok) in Ex; discriminate).
    destruct (St x c Xe (Old _ _ Ey)) as (c' & E' & _ & _ & _ & _ & Q). rewrite <- Q; [exact E'| |].
    + intros ->. pose proof (Hk _ _ Ey). lia.
    + intros Z. apply lasto_some_in, Wn in Z. unfold within in Z. pose proof (Ok _ _ Ex). subst e. lia.
  - exact E.
  - lia.
  - pose proof (Old _ _ Ec) as Ec1.
    assert (Nd : NoDup A).
    { destruct (Forest.forest_live _ _ _ _ _ FH Ec) as [Y|[[Y _]|(b & cb & t & _ & _ & _ & Y & _)]]; try (rewrite Dc in Y; discriminate).
      destruct (forest_sub _ _ _ _ FH Y) as (A' & k & par & pv & nx & L & Nd & _).
      apply linked_eq in L as [(c & M1 & M2 & M3) _]. rewrite Ec in M1. injection M1 as <-.
      rewrite Dc in M3. cbn [props_ok] in M3. destruct M3 as [Ep Ac]. pose proof (achain_path _ _ _ Ac) as P2.
      rewrite <- Ep in P2. rewrite <- (path_fun _ _ _ P2 _ P).
      cbn [ptrs] in Nd. apply NoDup_cons_iff in Nd as [_ Nd]. apply nodup_app_l in Nd. clear - Nd.
      induction A' as [|[y ky] r IH]; [constructor|]. cbn [map fst]. unfold attptrs in Nd. cbn [flat_map fst snd app] in Nd.
      apply NoDup_cons_iff in Nd as [N1 N2]. constructor.
      - intro X. apply N1, in_or_app. right. apply in_map_iff in X as ([z kz] & Ez & Hz). cbn in Ez. subst z.
        apply in_flat_map. exists (y, kz). split; [exact Hz|left; reflexivity].
      - apply IH. apply nodup_app_r in N2. exact N2. }
    destruct (St a ca Ae Ea1) as (ca' & Ea' & _ & _ & _ & Na' & _).
    assert (Nla : lasto A <> Some a).
    { intro Z. apply lasto_some_in, Wn in Z. unfold within in Z. lia. }
    specialize (Na' Nla).
    destruct (snoc_cases A) as [->|(A1 & z & EA)].
    + destruct Ad as [_ Ad]. cbn [lasto] in Ad. destruct Ad as (c1 & nm1 & ns1 & d1 & E1 & D1 & Ad).
      rewrite Ec1 in E1. injection E1 as <-. rewrite Dc in D1. injection D1 as <- <- <- ->.
      exists (with_dat (DElem nm sp defs (Some a)) c0), (Some a). split; [rewrite Ad, Pos.eqb_refl; reflexivity|].
      refine (conj Lc (conj eq_refl _)). cbn [app]. econstructor; [exact Ea'|]. rewrite Na', Na. constructor.
    + destruct Ad as [_ Ad]. rewrite EA, lasto_snoc in Ad.
      assert (Hz : In z A) by (rewrite EA; apply in_elt).
      destruct (Live z Hz) as (cz & nmz & dfz & Ez & Dz).
      assert (Hza : z <> a). { apply Wn in Hz. unfold within in Hz. lia. }
      assert (Hze : z <> e) by congruence.
      exists c0, props0. split.
      { rewrite Ad. destruct (Pos.eqb_spec e a); [congruence|]. destruct (Pos.eqb_spec e z); [congruence|exact Ec1]. }
      refine (conj Lc (conj Dc _)). rewrite EA.
      eapply path_snoc with (h := h).
      * rewrite <- EA. exact P.
      * rewrite <- EA. exact Nd.
      * intros x c Hx Ex.
        assert (HxA : In x A) by (rewrite EA; apply in_or_app; left; exact Hx).
        assert (Hxe : x <> e) by (apply Wn in HxA; unfold within in HxA; lia).
        destruct (St x c Hxe (Old _ _ Ex)) as (c' & E' & _ & _ & _ & N' & _). exists c'. split; [exact E'|]. apply N'.
        rewrite EA, lasto_snoc. intro Y. injection Y as ->. rewrite EA in Nd. apply (nodup_app_disj _ _ x Nd Hx). left. reflexivity.
      * rewrite Ad. destruct (Pos.eqb_spec z a); [contradiction|]. rewrite Pos.eqb_refl, (Old _ _ Ez). cbn. eauto.
      * exact Ea'.
      * rewrite Na', Na. reflexivity.
  - apply Forall2_app.
    + eapply att_in_same; [| | |exact At]; [lia|lia|]. intros x c Wx Ex.
      assert (x <> e) by (unfold within in Wx; lia).
      destruct (St x c H (Old _ _ Ex)) as (c' & E' & D' & L' & Q' & _). exists c'. auto.
    + constructor; [|constructor]. destruct (St a ca Ae Ea1) as (ca' & Ea' & Da' & La' & _).
      destruct Va as [[V1 V2]|(ct & V1 & V2 & V3 & V4 & V5)].
      * rewrite V2. eapply ai_empty; [unfold within; lia|exact Ea'|rewrite Da'; exact Da|rewrite La'; exact V1].
      * assert (H : Pos.succ a <> e) by lia.
        destruct (St _ ct H V2) as (c' & E' & D' & L' & Q' & _). rewrite V3 in Q'. specialize (Q' eq_refl). subst c'.
        eapply ai_text; [unfold within; lia|exact Ea'|rewrite Da'; exact Da|rewrite La'; exact V1|unfold within; lia|exact E'|exact V3|exact V4].
Qed.

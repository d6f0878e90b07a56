(* The tree builder makes the tree its events describe. *)
From Coq Require Import FMapPositive Permutation.
From Verif Require Import Base Utf8 Utf8Proofs Escape Scan Parser Heap TreeBuilder TreeShape TreeOps Forest ForestOps ForestAdd
  ForestAttr History TreeCalls Xml Mirror.

Definition wf (h : heap) : Prop := exists F G, forest h F G.

Lemma wf_ok h : wf h -> hok h.
Proof. intros (F & G & H). exact (f_ok _ _ _ H). Qed.
Lemma wf_consistent h : wf h -> consistent h.
Proof. intros (F & G & H). exact (forest_consistent _ _ _ H). Qed.

(* ---- trees whose strict descendants lie in [lo, hi) ---- *)
Definition within (lo hi q : positive) : Prop := (lo <= q < hi)%positive.

Inductive att_in (h : heap) (lo hi : positive) : ptr -> str * str -> Prop :=
| ai_empty a c nm df : within lo hi a -> hget h a = Some c -> dat c = DAttr nm df -> l_first (lk c) = None ->
    att_in h lo hi a (nm, [])
| ai_text a c nm df t ct v : within lo hi a -> hget h a = Some c -> dat c = DAttr nm df -> l_first (lk c) = Some t ->
    within lo hi t -> hget h t = Some ct -> dat ct = DText v -> l_next (lk ct) = None -> att_in h lo hi a (nm, v).

Inductive inside (h : heap) (lo hi : positive) : ptr -> xnode -> Prop :=
| in_elem p c nm ns defs props A atts ks kids : hget h p = Some c -> dat c = DElem nm ns defs props ->
    path h props A -> Forall2 (att_in h lo hi) A atts ->
    path h (l_first (lk c)) ks -> insides h lo hi ks kids -> inside h lo hi p (XElem nm ns defs atts kids)
| in_text p c s : hget h p = Some c -> dat c = DText s -> inside h lo hi p (XText s)
| in_comment p c s : hget h p = Some c -> dat c = DComment s -> inside h lo hi p (XComment s)
| in_pi p c t d : hget h p = Some c -> dat c = DPI t d -> l_first (lk c) = None -> inside h lo hi p (XPI t d)
with insides (h : heap) (lo hi : positive) : list ptr -> list xnode -> Prop :=
| is_nil : insides h lo hi [] []
| is_cons q x ks xs : within lo hi q -> inside h lo hi q x -> insides h lo hi ks xs -> insides h lo hi (q :: ks) (x :: xs).
Scheme inside_mut := Induction for inside Sort Prop
  with insides_mut := Induction for insides Sort Prop.
Combined Scheme inside_insides from inside_mut, insides_mut.

Lemma att_in_mono h lo hi lo' hi' a x : (lo' <= lo)%positive -> (hi <= hi')%positive ->
  att_in h lo hi a x -> att_in h lo' hi' a x.
Proof.
  unfold within. intros H1 H2 A. destruct A; [eapply ai_empty|eapply ai_text]; try eassumption; unfold within in *; lia.
Qed.
Lemma atts_in_mono h lo hi lo' hi' A l : (lo' <= lo)%positive -> (hi <= hi')%positive ->
  Forall2 (att_in h lo hi) A l -> Forall2 (att_in h lo' hi') A l.
Proof. intros H1 H2. induction 1; constructor; [eapply att_in_mono; eassumption|assumption]. Qed.
Lemma inside_mono h lo hi lo' hi' : (lo' <= lo)%positive -> (hi <= hi')%positive ->
  (forall p x, inside h lo hi p x -> inside h lo' hi' p x) /\
  (forall ks xs, insides h lo hi ks xs -> insides h lo' hi' ks xs).
Proof.
  intros H1 H2. apply inside_insides; intros.
  - eapply in_elem; try eassumption. eapply atts_in_mono; eassumption.
  - eapply in_text; eassumption.
  - eapply in_comment; eassumption.
  - eapply in_pi; eassumption.
  - constructor.
  - constructor; try assumption. unfold within in *; lia.
Qed.

(* the same cells, the same trees *)
Lemma att_in_frame h h' lo hi a x : (forall q c, within lo hi q -> hget h q = Some c -> hget h' q = Some c) ->
  att_in h lo hi a x -> att_in h' lo hi a x.
Proof.
  intros F A. destruct A.
  - eapply ai_empty; try eassumption. apply F; assumption.
  - eapply ai_text; try eassumption; apply F; assumption.
Qed.
Lemma atts_in_frame h h' lo hi A l : (forall q c, within lo hi q -> hget h q = Some c -> hget h' q = Some c) ->
  Forall2 (att_in h lo hi) A l -> Forall2 (att_in h' lo hi) A l.
Proof. intros F. induction 1; constructor; [eapply att_in_frame; eassumption|assumption]. Qed.
Lemma atts_in_within h lo hi A l : Forall2 (att_in h lo hi) A l -> forall a, In a A -> within lo hi a.
Proof.
  induction 1 as [|a x A l H1 H2 IH]; intros b Hb; [destruct Hb|]. destruct Hb as [<-|Hb]; [destruct H1; assumption|auto].
Qed.
Lemma insides_within h lo hi ks xs : insides h lo hi ks xs -> forall k, In k ks -> within lo hi k.
Proof.
  intros H. induction ks as [|q r IH] in xs, H |- *; intros k Hk; [destruct Hk|]. inversion H; subst.
  destruct Hk as [<-|Hk]; [assumption|eauto].
Qed.
Lemma path_frame h h' o l : path h o l -> (forall x c, In x l -> hget h x = Some c -> hget h' x = Some c) -> path h' o l.
Proof.
  intros P F. eapply path_same; [exact P|]. intros x c Hx E. exists c. rewrite (F x c Hx E). auto.
Qed.
Lemma inside_frame h h' lo hi : (forall q c, within lo hi q -> hget h q = Some c -> hget h' q = Some c) ->
  (forall p x, inside h lo hi p x ->
     (exists c c', hget h p = Some c /\ hget h' p = Some c' /\ dat c' = dat c /\ l_first (lk c') = l_first (lk c)) ->
     inside h' lo hi p x) /\
  (forall ks xs, insides h lo hi ks xs -> insides h' lo hi ks xs).
Proof.
  intros F. apply inside_insides.
  - intros p c nm ns defs props A atts ks kids E D PA FA PK IK IH (c0 & c' & E0 & E' & D' & L').
    rewrite E in E0. injection E0 as <-. eapply in_elem; [exact E'|rewrite D'; exact D| | | |].
    + eapply path_frame; [exact PA|]. intros x cx Hx. apply F. exact (atts_in_within _ _ _ _ _ FA x Hx).
    + eapply atts_in_frame; eassumption.
    + rewrite L'. eapply path_frame; [exact PK|]. intros x cx Hx. apply F. exact (insides_within _ _ _ _ _ IK x Hx).
    + exact IH.
  - intros p c s E D (c0 & c' & E0 & E' & D' & L'). rewrite E in E0. injection E0 as <-. eapply in_text; [exact E'|congruence].
  - intros p c s E D (c0 & c' & E0 & E' & D' & L'). rewrite E in E0. injection E0 as <-. eapply in_comment; [exact E'|congruence].
  - intros p c t d E D L (c0 & c' & E0 & E' & D' & L'). rewrite E in E0. injection E0 as <-.
    eapply in_pi; [exact E'|congruence|congruence].
  - constructor.
  - intros q x ks xs W I IH1 IS IH2. constructor; [exact W| |exact IH2]. apply IH1.
    assert (X : exists c, hget h q = Some c) by (destruct I; eauto). destruct X as (c & E).
    exists c, c. rewrite (F q c W E). auto.
Qed.

(* such trees are trees of Xml.v *)
Lemma atts_in_at h lo hi A l : Forall2 (att_in h lo hi) A l -> forall o, path h o A -> attrs_at h o l.
Proof.
  induction 1 as [|a x A l H1 H2 IH]; intros o P; inversion P as [|p c l' E P']; subst; [constructor|].
  destruct H1 as [a c0 nm df W E0 D L|a c0 nm df t ct v W E0 D L W2 Et Dt Lt]; rewrite E in E0; injection E0 as <-.
  - eapply aa_empty; try eassumption. apply IH, P'.
  - eapply aa_text; try eassumption. apply IH, P'.
Qed.
Lemma inside_is h lo hi :
  (forall p x, inside h lo hi p x -> node_is h p x) /\
  (forall ks xs, insides h lo hi ks xs -> forall o, path h o ks -> nodes_at h o xs).
Proof.
  apply inside_insides.
  - intros p c nm ns defs props A atts ks kids E D PA FA PK IK IH. eapply ni_elem; [exact E|exact D| |].
    + eapply atts_in_at; eassumption.
    + apply IH, PK.
  - intros. eapply ni_text; eassumption.
  - intros. eapply ni_comment; eassumption.
  - intros. eapply ni_pi; eassumption.
  - intros o P. inversion P. constructor.
  - intros q x ks xs W I IH1 IS IH2 o P. inversion P as [|p c l' E P']; subst. econstructor; [exact E|exact IH1|]. apply IH2, P'.
Qed.

(* ---- the children built so far under an open node ---- *)
Inductive laid (h : heap) : positive -> list ptr -> list xnode -> positive -> Prop :=
| ld_nil lo hi : (lo <= hi)%positive -> laid h lo [] [] hi
| ld_cons lo q m x ks xs hi : (lo <= q)%positive -> (q < m)%positive -> inside h (Pos.succ q) m q x -> laid h m ks xs hi ->
    laid h lo (q :: ks) (x :: xs) hi.

Lemma laid_le h lo ks xs hi : laid h lo ks xs hi -> (lo <= hi)%positive.
Proof. induction 1; lia. Qed.
Lemma laid_in h lo ks xs hi : laid h lo ks xs hi -> forall k, In k ks -> within lo hi k.
Proof.
  induction 1 as [|lo q m x ks xs hi H1 H2 H3 H4 IH]; intros k Hk; [destruct Hk|]. apply laid_le in H4. unfold within in *.
  destruct Hk as [<-|Hk]; [lia|]. specialize (IH k Hk). lia.
Qed.
Lemma laid_app h lo ks xs m ks' xs' hi : laid h lo ks xs m -> laid h m ks' xs' hi -> laid h lo (ks ++ ks') (xs ++ xs') hi.
Proof.
  induction 1 as [lo m H|lo q m0 x ks xs m H1 H2 H3 H4 IH]; intros L; cbn [app].
  - inversion L; subst; [constructor; lia|econstructor; try eassumption; lia].
  - econstructor; try eassumption. apply IH, L.
Qed.
Lemma laid_insides h lo ks xs hi : laid h lo ks xs hi -> insides h lo hi ks xs.
Proof.
  induction 1 as [|lo q m x ks xs hi H1 H2 H3 H4 IH]; [constructor|]. pose proof (laid_le _ _ _ _ _ H4) as L.
  constructor; [unfold within; lia| |].
  - revert H3. apply (inside_mono h (Pos.succ q) m lo hi); lia.
  - revert IH. apply (inside_mono h m hi lo hi); lia.
Qed.
(* every cell in the range is as it was, except that the last child may have
   got another next sibling *)
Lemma laid_frame h h' lo ks xs hi : laid h lo ks xs hi ->
  (forall q c, within lo hi q -> lasto ks <> Some q -> hget h q = Some c -> hget h' q = Some c) ->
  (forall q c, lasto ks = Some q -> hget h q = Some c ->
     exists c', hget h' q = Some c' /\ dat c' = dat c /\ l_first (lk c') = l_first (lk c)) ->
  laid h' lo ks xs hi.
Proof.
  induction 1 as [|lo q m x ks xs hi H1 H2 H3 H4 IH]; intros F L; [constructor; assumption|].
  pose proof (laid_le _ _ _ _ _ H4) as Le.
  assert (Last : forall z, lasto (q :: ks) = Some z -> z = q \/ (m <= z)%positive).
  { intros z Z. destruct ks as [|k r]; [left; cbn in Z; congruence|]. right.
    assert (In z (k :: r)) as X.
    { destruct (snoc_cases (k :: r)) as [Y|(l & y & Y)]; [discriminate|].
      rewrite Y in Z. change (q :: l ++ [y]) with ((q :: l) ++ [y]) in Z. rewrite lasto_snoc in Z. injection Z as <-.
      rewrite Y. apply in_elt. }
    apply (laid_in _ _ _ _ _ H4) in X. unfold within in X. lia. }
  econstructor; try eassumption.
  - apply (inside_frame h h' (Pos.succ q) m); [|exact H3|].
    + intros y cy Hy. apply F; [unfold within in *; lia|]. intros Z. apply Last in Z. unfold within in Hy. lia.
    + assert (X : exists c, hget h q = Some c) by (destruct H3; eauto). destruct X as (c & E).
      assert (Z : {lasto (q :: ks) = Some q} + {lasto (q :: ks) <> Some q}) by (repeat decide equality).
      destruct Z as [Z|Z].
      * destruct (L q c Z E) as (c' & E' & D' & L'). exists c, c'. auto.
      * exists c, c. assert (Y : hget h' q = Some c) by (apply F; [unfold within; lia|exact Z|exact E]). rewrite Y. auto.
  - destruct ks as [|k r].
    + inversion H4; subst. constructor. assumption.
    + apply IH.
      * intros y cy Hy Ny. apply F; [unfold within in *; lia|]. exact Ny.
      * intros y c Y. apply L. exact Y.
Qed.

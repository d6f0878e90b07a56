(* The tree builder makes the tree its events describe. *)
From Coq Require Import FMapPositive Permutation.
From Verif Require Import Base Utf8 Utf8Proofs Escape Scan Parser Heap TreeBuilder TreeShape TreeOps Forest ForestOps ForestAdd
  ForestAttr History TreeCalls Xml Mirror XmlBuild XmlSteps XmlElem.

Lemma dressed_attrs n h0 e nm sp defs atts atts' : mirrors_atts atts atts' -> forall A l h,
  dressed h0 e nm sp defs A l h -> NoDup (map fst (l ++ atts')) ->
  (forall a b v, In (AAttr a b v) atts -> (List.length v < n)%nat) ->
  exists h' A', setAttributes n e atts h = (Ret tt, h') /\ dressed h0 e nm sp defs A' (l ++ atts') h'.
Proof.
  induction 1 as [|lo p rs a b V M IH|lo p raw a b M IH]; intros A l h D Nd Sh; cbn [setAttributes].
  - exists h, A. rewrite app_nil_r. auto.
  - change (amp_escaped rs) with (ampesc rs) in *.
    assert (Ln : (List.length rs < n)%nat).
    { pose proof (ampesc_length rs). specialize (Sh lo p _ (or_introl eq_refl)). change (amp_escaped rs) with (ampesc rs) in Sh. lia. }
    assert (Nn : ~ In (att_name p lo) (map fst l)).
    { rewrite map_app in Nd. cbn [map fst] in Nd. intro X. apply (nodup_app_disj _ _ _ Nd X). left. reflexivity. }
    destruct (dressed_attr n _ _ _ _ _ _ _ _ (att_name p lo) rs D V Nn Ln) as (h1 & x & R & D1).
    change (prefixed p lo) with (att_name p lo). rewrite (hbind_ret _ _ _ _ _ R). cbv beta.
    destruct (IH _ _ _ D1) as (h2 & A2 & R2 & D2).
    + rewrite <- app_assoc. exact Nd.
    + intros a0 b0 v Hv. eapply Sh. right. exact Hv.
    + exists h2, A2. split; [exact R2|]. rewrite <- app_assoc in D2. exact D2.
  - destruct (IH _ _ _ D Nd) as (h2 & A2 & R2 & D2); [intros a0 b0 v Hv; eapply Sh; right; exact Hv|]. eauto.
Qed.

Section Build.
Variable n : nat.
Variable v : view.
Hypothesis Hv : v_inSubset v <> 1 /\ v_inSubset v <> 2.

(* the callbacks for evs one after the other, all without error *)
Fixpoint feed (s : tb) (evs : list event) : option tb :=
  match evs with
  | [] => Some s
  | e :: r => match tb_event n s v e with
              | (s', HNil) => feed s' r
              | _ => None
              end
  end.
Lemma feed_app a : forall s b, feed s (a ++ b) = match feed s a with Some s' => feed s' b | None => None end.
Proof.
  induction a as [|e a IH]; intros s b; [reflexivity|]. cbn [feed app]. destruct (tb_event n s v e) as [s' []]; auto.
Qed.

Definition current (s : tb) (p : ptr) : Prop :=
  tb_doc s <> None /\
  match tb_elem s with
  | Some e => e = p /\ kind (tb_heap s) p = Some ElementNode
  | None => tb_doc s = Some p /\ kind (tb_heap s) p = Some DocumentNode
  end.

Lemma kind_kept h p ks h' x k : kept h p ks h' -> kind h x = Some k -> kind h' x = Some k.
Proof.
  intros K. unfold kind, data_of. destruct (hget h x) as [c|] eqn:E; [|discriminate].
  destruct (kept_dat _ _ _ _ _ _ K E) as (c' & E' & D' & _). rewrite E'. cbn. congruence.
Qed.
Lemma current_kept s p ks h' : current s p -> kept (tb_heap s) p ks h' -> current (with_heap h' s) p.
Proof.
  intros [Hd C] K. split; [exact Hd|]. cbn. destruct (tb_elem s) as [e|]; destruct C as [C1 C2]; (split; [exact C1|]); eapply kind_kept; eassumption.
Qed.

(* comments and processing instructions *)
Lemma attach_leaf s p ks o d x : current s p -> level (tb_heap s) p ks -> leaf_of d = Some x -> typeOf d <> TextNode ->
  exists h', (q <- alloc o d ;; attach (tb_doc s) (tb_elem s) q) (tb_heap s) = (Ret tt, h') /\
    level h' p (ks ++ [nxt (tb_heap s)]) /\ kept (tb_heap s) p ks h' /\
    laid h' (nxt (tb_heap s)) [nxt (tb_heap s)] [x] (nxt h') /\ kind h' (nxt (tb_heap s)) <> Some TextNode.
Proof.
  intros [Hd C] LV Ld Td.
  destruct (add_leaf _ p ks o d x LV Ld) as (h' & R & LV' & K & La & Dd); [intros z _ [_ X]; contradiction|].
  exists h'. split.
  - rewrite (hbind_ret _ _ _ _ _ (alloc_run _ _ _)). cbv beta. unfold attach.
    destruct (tb_elem s) as [e|].
    + destruct C as [-> _]. unfold hignore. unfold with_new in R. rewrite R. reflexivity.
    + destruct C as [-> _]. unfold hignore, deref. rewrite (hbind_ret _ _ _ p _ eq_refl). unfold with_new in R. rewrite R. reflexivity.
  - refine (conj LV' (conj K (conj La _))). unfold kind. rewrite Dd. cbn. congruence.
Qed.

Definition last_text (h : heap) (ks : list ptr) : Prop := exists z, lasto ks = Some z /\ kind h z = Some TextNode.

Lemma comment_step s p ks t : current s p -> level (tb_heap s) p ks ->
  exists h', tb_event n s v (EComment t) = (with_heap h' s, HNil) /\ level h' p (ks ++ [nxt (tb_heap s)]) /\
    kept (tb_heap s) p ks h' /\ laid h' (nxt (tb_heap s)) [nxt (tb_heap s)] [XComment t] (nxt h') /\
    ~ last_text h' (ks ++ [nxt (tb_heap s)]).
Proof.
  intros C LV. destruct (attach_leaf s p ks (tb_doc s) (DComment t) _ C LV eq_refl) as (h' & R & LV' & K & La & T); [discriminate|].
  exists h'. split.
  - unfold tb_event, tb_action, comment, CreateComment. destruct (tb_doc s) as [d|] eqn:Ed; [|exfalso; apply (proj1 C), Ed].
    rewrite (hbind_ret _ _ _ _ _ R). cbn. unfold with_heap. rewrite Ed. reflexivity.
  - refine (conj LV' (conj K (conj La _))). intros (z & Z & Kz). rewrite lasto_snoc in Z. injection Z as <-. contradiction.
Qed.
Lemma pi_step s p ks t d : current s p -> level (tb_heap s) p ks ->
  exists h', tb_event n s v (EProcessingInstruction t d) = (with_heap h' s, HNil) /\ level h' p (ks ++ [nxt (tb_heap s)]) /\
    kept (tb_heap s) p ks h' /\ laid h' (nxt (tb_heap s)) [nxt (tb_heap s)] [XPI t d] (nxt h') /\
    ~ last_text h' (ks ++ [nxt (tb_heap s)]).
Proof.
  intros C LV. destruct (attach_leaf s p ks None (DPI t d) _ C LV eq_refl) as (h' & R & LV' & K & La & T); [discriminate|].
  exists h'. split.
  - unfold tb_event, tb_action, processingInstruction, CreatePI.
    destruct (Z.eqb_spec (v_inSubset v) 1); [tauto|]. destruct (Z.eqb_spec (v_inSubset v) 2); [tauto|].
    rewrite (hbind_ret _ _ _ _ _ (alloc_run _ _ _)) in R. cbv beta in R.
    erewrite hbind_ret; [reflexivity|]. rewrite (hbind_ret _ _ _ _ _ (alloc_run _ _ _)). cbv beta.
    exact R.
  - refine (conj LV' (conj K (conj La _))). intros (z & Z & Kz). rewrite lasto_snoc in Z. injection Z as <-. contradiction.
Qed.

(* ---- text ---- *)
Lemma kept_same h p ks h1 h2 : hok h -> kept h p ks h1 -> (nxt h1 <= nxt h2)%positive ->
  (forall x c, (x < nxt h)%positive -> hget h1 x = Some c -> hget h2 x = Some c) -> kept h p ks h2.
Proof.
  intros Ok K Le S. constructor.
  - pose proof (k_nxt _ _ _ _ K). lia.
  - intros x c E Np Nl. apply S; [exact (Ok x c E)|]. exact (k_same _ _ _ _ K x c E Np Nl).
  - intros c E. destruct (k_par _ _ _ _ K c E) as (c' & E' & R). exists c'. split; [|exact R]. apply S; [exact (Ok p c E)|exact E'].
  - intros z c L Nz E. destruct (k_last _ _ _ _ K z c L Nz E) as (c' & E' & R). exists c'. split; [|exact R]. apply S; [exact (Ok z c E)|exact E'].
Qed.

Lemma characters_step s p t h : tb_elem s = Some p -> forall e h', text_event e t -> tb_heap s = h ->
  AddContent p t h = (Ret tt, h') -> tb_event n s v e = (with_heap h' s, HNil).
Proof.
  intros Es e h' [->| ->] Eh R; unfold tb_event, tb_action, characters; rewrite Es, Eh, (hbind_ret _ _ _ _ _ R);
    cbn; unfold with_heap; rewrite Es; reflexivity.
Qed.

Lemma feed_more s p : tb_elem s = Some p -> forall tevs ts, Forall2 text_event tevs ts -> forall h ks q s0,
  level h p (ks ++ [q]) -> data_of h q = Some (DText s0) -> kind h p = Some ElementNode ->
  exists h', feed (with_heap h s) tevs = Some (with_heap h' s) /\ level h' p (ks ++ [q]) /\
    data_of h' q = Some (DText (s0 ++ concat ts)) /\ (nxt h <= nxt h')%positive /\
    (forall x c, x <> q -> hget h x = Some c -> hget h' x = Some c).
Proof.
  intros Es tevs ts F. induction F as [|e t tevs ts He F IH]; intros h ks q s0 LV Dq Kp.
  - exists h. cbn [feed concat]. rewrite app_nil_r. refine (conj eq_refl (conj LV (conj Dq (conj _ _)))); [lia|auto].
  - destruct (more_text h p ks q s0 t LV Dq Kp) as (h1 & R & LV1 & D1 & N1 & S1 & Q1).
    assert (Kp1 : kind h1 p = Some ElementNode).
    { assert (p <> q) as Npq by (intros ->; apply (lv_self _ _ _ LV), in_elt). revert Kp. unfold kind, data_of.
      destruct (hget h p) as [c|] eqn:E; [|discriminate]. rewrite (S1 _ _ Npq E). auto. }
    destruct (IH h1 ks q (s0 ++ t) LV1 D1 Kp1) as (h2 & R2 & LV2 & D2 & N2 & S2).
    exists h2. cbn [feed concat]. rewrite (characters_step (with_heap h s) p t h Es e h1 He eq_refl R).
    rewrite <- app_assoc in D2. refine (conj R2 (conj LV2 (conj D2 (conj _ _)))); [lia|auto].
Qed.

Lemma text_run s p ks tevs ts : current s p -> tb_elem s = Some p -> level (tb_heap s) p ks -> ~ last_text (tb_heap s) ks ->
  tevs <> [] -> Forall2 text_event tevs ts ->
  exists h', feed s tevs = Some (with_heap h' s) /\ level h' p (ks ++ [nxt (tb_heap s)]) /\ kept (tb_heap s) p ks h' /\
    laid h' (nxt (tb_heap s)) [nxt (tb_heap s)] [XText (concat ts)] (nxt h').
Proof.
  intros C Es LV Nl Ne F. destruct F as [|e t tevs ts He F]; [contradiction|]. set (h := tb_heap s) in *.
  pose proof (wf_ok _ (lv_wf _ _ _ LV)) as Ok.
  assert (Kp : kind h p = Some ElementNode) by (destruct C as [_ C]; rewrite Es in C; apply C).
  destruct (add_leaf h p ks None (DText t) _ LV eq_refl) as (h1 & R & LV1 & K1 & La1 & D1).
  { intros z Z [Kz _]. apply Nl. exists z. auto. }
  assert (Ra : AddContent p t h = (Ret tt, h1)).
  { pose proof Kp as Kp'. unfold kind in Kp'. destruct (data_of h p) as [d|] eqn:Ed; [|discriminate].
    destruct (data_of_some _ _ _ Ed) as (c & E & Ec). unfold AddContent. rewrite (bind_getc _ _ _ _ E). cbv beta. rewrite Ec.
    destruct d; cbn in Kp'; try discriminate. rewrite (hbind_ret _ _ _ _ _ (alloc_run _ _ _)). exact R. }
  destruct (feed_more s p Es tevs ts F h1 ks (nxt h) t LV1 D1 (kind_kept _ _ _ _ _ _ K1 Kp)) as (h2 & R2 & LV2 & D2 & N2 & S2).
  exists h2. cbn [feed concat]. rewrite (characters_step s p t h Es e h1 He eq_refl Ra).
  refine (conj R2 (conj LV2 (conj _ _))).
  - eapply kept_same; [exact Ok|exact K1|exact N2|]. intros x c Hx E. apply S2; [lia|exact E].
  - apply ld_cons with (m := nxt h2); [lia| |destruct (data_of_some _ _ _ D2) as (c & E & Ec); eapply in_text; eassumption|constructor; lia].
    inversion La1; subst. match goal with X : laid h1 _ [] [] _ |- _ => apply laid_le in X end. lia.
Qed.

(* ---- elements ---- *)
Lemma start_step s p ks l pf u ns atts atts' : current s p -> level (tb_heap s) p ks ->
  mirrors_atts atts atts' -> NoDup (map fst atts') -> (forall a b w, In (AAttr a b w) atts -> (List.length w < n)%nat) ->
  let e := nxt (tb_heap s) in
  exists h1 c props A, tb_event n s v (EStartElement l pf u (map Some ns) atts) =
      ({| tb_heap := h1; tb_doc := tb_doc s; tb_elem := Some e |}, HNil) /\
    level h1 p (ks ++ [e]) /\ kept (tb_heap s) p ks h1 /\ level h1 e [] /\
    hget h1 e = Some c /\ dat c = DElem l (space pf u) ns props /\ l_par (lk c) = Some p /\
    path h1 props A /\ Forall2 (att_in h1 (Pos.succ e) (nxt h1)) A atts' /\ (e < nxt h1)%positive.
Proof.
  intros C LV Ma Nd Sh e. set (h := tb_heap s) in *. pose proof (lv_wf _ _ _ LV) as W. pose proof (wf_ok _ W) as Ok.
  destruct (dressed_new h (tb_doc s) l W) as (ha & Ra & Da).
  destruct (dressed_space _ _ _ _ _ _ _ _ pf u Da) as (hb & Rb & Db).
  destruct (dressed_defs _ _ _ _ _ _ ns _ _ Db) as (hc & Rc & Dc).
  destruct (dressed_attrs n _ _ _ _ _ atts atts' Ma _ _ _ Dc Nd Sh) as (h2 & A & Rd & D2).
  cbn [app] in D2. fold e in D2, Ra, Rb, Rc, Rd.
  destruct D2 as [W2 _ X2 _ Lt2 (c2 & props & E2 & L2 & Dt2 & P2) At2].
  pose proof (level_extends _ _ _ _ LV X2 W2) as LV2.
  assert (Hpe : p <> e) by exact (level_fresh _ _ _ LV).
  assert (Plt : (p < e)%positive) by (destruct (lv_stand _ _ _ LV) as (cp & Ep & _); exact (Ok _ _ Ep)).
  assert (Kin : forall z, In z ks -> (z < e)%positive).
  { intros z Z. apply (children_in _ _ _ _ (lv_ch _ _ _ LV)) in Z. unfold parent_of in Z. destruct (hget h z) eqn:Ez; [|discriminate]. exact (Ok _ _ Ez). }
  assert (Ch : childless h2 e) by (eapply childless_of; [exact W2|exact E2|rewrite Dt2; reflexivity|rewrite L2; reflexivity]).
  destruct (grow h2 p ks e c2 LV2 E2 L2) as (h1 & R & N1 & LV1 & Same & Cells & (c1 & E1 & D1 & P1 & F1 & Nx1)); try assumption.
  { rewrite Dt2. reflexivity. } { rewrite Dt2. discriminate. } { intros z _ [_ T]. rewrite Dt2 in T. discriminate. }
  assert (Kp : kept h p ks h1).
  { eapply grow_kept; [exact X2|exact N1|exact (lv_self _ _ _ LV)| |exact Same|exact Cells]. apply hok_free, Ok. }
  assert (Fr : forall x c, (Pos.succ e <= x)%positive -> hget h2 x = Some c -> hget h1 x = Some c).
  { intros x c Hx E. rewrite Same; [exact E|lia|lia|]. intros Z. apply lasto_some_in, Kin in Z. lia. }
  exists h1, c1, props, A. split.
  { unfold tb_event, tb_action, startElement. fold h.
    assert (Rat : attach (tb_doc s) (tb_elem s) e h2 = (Ret tt, h1)).
    { unfold attach. destruct C as [Hd C]. destruct (tb_elem s) as [y|].
      - destruct C as [-> _]. unfold hignore. rewrite R. reflexivity.
      - destruct C as [-> _]. unfold hignore, deref. rewrite (hbind_ret _ _ _ p _ eq_refl). rewrite R. reflexivity. }
    erewrite hbind_ret; [reflexivity|].
    rewrite (hbind_ret _ _ _ _ _ Ra). cbv beta.
    rewrite (hbind_ret _ _ _ _ _ Rb). cbv beta.
    rewrite (hbind_ret _ _ _ _ _ Rc). cbv beta.
    rewrite (hbind_ret _ _ _ _ _ Rd). cbv beta.
    rewrite (hbind_ret _ _ _ _ _ Rat). reflexivity. }
  split; [exact LV1|]. split; [exact Kp|]. split.
  { pose proof (lv_wf _ _ _ LV1) as W1. constructor; [exact W1| | |intros []|intros z; discriminate].
    - exists c1. split; [exact E1|]. split; [rewrite D1, Dt2; exact I|]. intros q Hq. rewrite P1 in Hq. injection Hq as <-.
      destruct (lv_stand _ _ _ LV1) as (cp & Ep & Hp & _). eauto.
    - eapply children_by_path; [apply wf_consistent, W1|exact E1|rewrite D1, Dt2; reflexivity|]. rewrite F1. constructor. }
  split; [exact E1|]. split; [rewrite D1; exact Dt2|]. split; [exact P1|]. rewrite N1. split; [|split; [|exact Lt2]].
  - eapply path_frame; [exact P2|]. intros x c Hx. apply Fr. apply (atts_in_within _ _ _ _ _ At2) in Hx. apply Hx.
  - eapply atts_in_frame; [|exact At2]. intros x c Hx. apply Fr. apply Hx.
Qed.

Lemma end_step s p e h2 c l pf u : current s p -> hget h2 e = Some c -> l_par (lk c) = Some p ->
  kind h2 p = kind (tb_heap s) p ->
  tb_event n {| tb_heap := h2; tb_doc := tb_doc s; tb_elem := Some e |} v (EEndElement l pf u) = (with_heap h2 s, HNil).
Proof.
  intros [Hd C] E P K. unfold tb_event, tb_action, endElement. cbn [tb_elem tb_doc tb_heap].
  assert (R : (c0 <- getc e;; match l_par (lk c0) with
                       | Some p0 => k <- getc p0;; match dat k with DElem _ _ _ _ => hret (Some p0) | _ => hret None end
                       | None => hret None end) h2 = (Ret (tb_elem s), h2)).
  { rewrite (bind_getc _ _ _ _ E). cbv beta. rewrite P.
    assert (X : exists cp, hget h2 p = Some cp /\ kind h2 p = Some (typeOf (dat cp))).
    { assert (Y : kind h2 p <> None) by (rewrite K; destruct (tb_elem s); destruct C as [_ C]; rewrite C; discriminate).
      unfold kind, data_of in *. destruct (hget h2 p) as [cp|]; [|cbn in Y; congruence]. exists cp. auto. }
    destruct X as (cp & Ep & Kp). rewrite (bind_getc _ _ _ _ Ep). cbv beta. rewrite K in Kp.
    destruct (tb_elem s) as [y|]; destruct C as [C1 C2]; rewrite C2 in Kp; injection Kp as Kp.
    - subst y. destruct (dat cp); try discriminate. reflexivity.
    - destruct (dat cp); try discriminate. reflexivity. }
  rewrite (hbind_ret _ _ _ _ _ R). reflexivity.
Qed.

Lemma then_rest h p ks h2 q x h3 ks2 xs : level h p ks -> kept h p ks h2 -> laid h2 (nxt h) [q] [x] (nxt h2) ->
  kept h2 p (ks ++ [q]) h3 -> laid h3 (nxt h2) ks2 xs (nxt h3) ->
  kept h p ks h3 /\ laid h3 (nxt h) (q :: ks2) (x :: xs) (nxt h3).
Proof.
  intros LV K1 L1 K2 L2. pose proof (wf_ok _ (lv_wf _ _ _ LV)) as Ok.
  assert (Hq : (nxt h <= q)%positive) by (apply (laid_in _ _ _ _ _ L1 q (or_introl eq_refl))).
  assert (Kin : forall z, In z ks -> (z < nxt h)%positive).
  { intros z Z. apply (children_in _ _ _ _ (lv_ch _ _ _ LV)) in Z. unfold parent_of in Z. destruct (hget h z) eqn:Ez; [|discriminate]. exact (Ok _ _ Ez). }
  assert (Plt : (p < nxt h)%positive) by (destruct (lv_stand _ _ _ LV) as (cp & Ep & _); exact (Ok _ _ Ep)).
  split.
  - eapply kept_trans; [exact K1|exact K2|exact (lv_self _ _ _ LV)| |].
    + intros z Z. rewrite lasto_snoc. intros [= <-]. apply Kin in Z. lia.
    + intros y c E Hy. apply in_app_or in Hy. destruct Hy as [Hy|[<-|[]]]; [exact Hy|]. apply Ok in E. lia.
  - change (q :: ks2) with ([q] ++ ks2). change (x :: xs) with ([x] ++ xs). eapply laid_app; [|exact L2].
    eapply laid_frame; [exact L1| |].
    + intros y c Hy Ny E. apply (k_same _ _ _ _ K2 y c E); [unfold within in Hy; lia|]. rewrite lasto_snoc. exact Ny.
    + intros y c Hy E. cbn in Hy. injection Hy as <-.
      destruct (k_last _ _ _ _ K2 q c (lasto_snoc _ _)) as (c' & E' & D' & P' & F' & _); [lia|exact E|]. eauto.
Qed.

Definition short (evs : list event) : Prop := forall l pf u ns atts a b w,
  In (EStartElement l pf u ns atts) evs -> In (AAttr a b w) atts -> (List.length w < n)%nat.
Lemma short_app a b : short (a ++ b) -> short a /\ short b.
Proof. intros S. split; intros l pf u ns atts x y w H; eapply S, in_or_app; [left|right]; exact H. Qed.
Lemma short_cons e b : short (e :: b) -> short b.
Proof. intros S l pf u ns atts x y w H. eapply S. right. exact H. Qed.

Theorem build evs xs : mirrors evs xs -> forall s p ks,
  current s p -> level (tb_heap s) p ks -> (starts_text evs -> ~ last_text (tb_heap s) ks) ->
  (tb_elem s = None -> no_text xs) -> short evs ->
  exists h' ks', feed s evs = Some (with_heap h' s) /\ level h' p (ks ++ ks') /\ kept (tb_heap s) p ks h' /\
    laid h' (nxt (tb_heap s)) ks' xs (nxt h').
Proof.
  induction 1 as [|tevs ts evs xs Ne F Ns M IH|t evs xs M IH|t d evs xs M IH|l pf u ns atts atts' body kids l' pf' u' evs xs Ma Nd M1 IH1 M2 IH2];
    intros s p ks C LV Nt Nx Sh.
  - exists (tb_heap s), []. cbn [feed]. rewrite app_nil_r. destruct s; cbn in *. refine (conj eq_refl (conj LV (conj (kept_refl _ _ _) _))). constructor. lia.
  - assert (Es : tb_elem s = Some p).
    { destruct C as [_ C]. destruct (tb_elem s) as [y|] eqn:Es; [destruct C as [-> _]; reflexivity|]. exfalso. apply (Nx eq_refl (concat ts)). left. reflexivity. }
    assert (Nl : ~ last_text (tb_heap s) ks).
    { apply Nt. destruct F as [|e t tevs ts He F]; [contradiction|]. exists e, t, (tevs ++ evs). auto. }
    destruct (text_run s p ks tevs ts C Es LV Nl Ne F) as (h2 & R & LV2 & K2 & La2).
    destruct (IH (with_heap h2 s) p (ks ++ [nxt (tb_heap s)])) as (h3 & ks3 & R3 & LV3 & K3 & La3).
    + eapply current_kept; eassumption.
    + exact LV2.
    + intros X. contradiction.
    + intros X. cbn in X. congruence.
    + apply (short_app _ _ Sh).
    + exists h3, (nxt (tb_heap s) :: ks3). rewrite feed_app, R. split; [exact R3|].
      rewrite <- app_assoc in LV3. split; [exact LV3|]. eapply then_rest; eassumption.
  - destruct (comment_step s p ks t C LV) as (h2 & R & LV2 & K2 & La2 & Nl).
    destruct (IH (with_heap h2 s) p (ks ++ [nxt (tb_heap s)])) as (h3 & ks3 & R3 & LV3 & K3 & La3).
    + eapply current_kept; eassumption.
    + exact LV2.
    + intros _. exact Nl.
    + intros X w Hw. apply (Nx X w). right. exact Hw.
    + eapply short_cons, Sh.
    + exists h3, (nxt (tb_heap s) :: ks3). cbn [feed]. rewrite R. split; [exact R3|].
      rewrite <- app_assoc in LV3. split; [exact LV3|]. eapply then_rest; eassumption.
  - destruct (pi_step s p ks t d C LV) as (h2 & R & LV2 & K2 & La2 & Nl).
    destruct (IH (with_heap h2 s) p (ks ++ [nxt (tb_heap s)])) as (h3 & ks3 & R3 & LV3 & K3 & La3).
    + eapply current_kept; eassumption.
    + exact LV2.
    + intros _. exact Nl.
    + intros X w Hw. apply (Nx X w). right. exact Hw.
    + eapply short_cons, Sh.
    + exists h3, (nxt (tb_heap s) :: ks3). cbn [feed]. rewrite R. split; [exact R3|].
      rewrite <- app_assoc in LV3. split; [exact LV3|]. eapply then_rest; eassumption.
  - destruct (start_step s p ks l pf u ns atts atts' C LV Ma Nd) as (h1 & c & props & A & R & LV1 & K1 & LVe & E & D & P & Pa & At & Lt).
    { intros a b w. eapply Sh. left. reflexivity. }
    set (e := nxt (tb_heap s)) in *. pose proof (short_cons _ _ Sh) as Sh'. apply short_app in Sh' as [Sb Sr].
    assert (Npe : p <> e) by exact (level_fresh _ _ _ LV).
    destruct (IH1 {| tb_heap := h1; tb_doc := tb_doc s; tb_elem := Some e |} e []) as (h2 & ks1 & R1 & LV2 & K2 & La2); cbn [tb_heap tb_doc tb_elem] in *.
    + split; [apply C|]. split; [reflexivity|]. cbn. unfold kind, data_of. rewrite E. cbn. rewrite D. reflexivity.
    + exact LVe.
    + intros _ (z & Z & _). discriminate.
    + discriminate.
    + exact Sb.
    + cbn [app] in LV2. destruct (k_par _ _ _ _ K2 c E) as (c2 & E2 & D2 & P2 & N2).
      assert (Fr : forall x cx, x <> e -> hget h1 x = Some cx -> hget h2 x = Some cx).
      { intros x cx Hx Ex. apply (k_same _ _ _ _ K2 x cx Ex Hx). discriminate. }
      assert (Le : (nxt h1 <= nxt h2)%positive) by apply K2.
      assert (Kp : kept (tb_heap s) p ks h2).
      { eapply kept_same; [apply wf_ok, LV|exact K1|exact Le|]. intros x cx Hx. apply Fr. unfold e. lia. }
      assert (Re : tb_event n {| tb_heap := h2; tb_doc := tb_doc s; tb_elem := Some e |} v (EEndElement l' pf' u') = (with_heap h2 s, HNil)).
      { eapply end_step; [exact C|exact E2|congruence|]. destruct C as [_ C].
        destruct (tb_elem s); destruct C as [_ C]; rewrite C; eapply kind_kept; eassumption. }
      assert (La : laid h2 e [e] [XElem l (space pf u) ns atts' kids] (nxt h2)).
      { apply ld_cons with (m := nxt h2); [lia|lia| |constructor; lia].
        destruct (lv_ch _ _ _ LV2) as (c2' & E2' & P2' & _). rewrite E2 in E2'. injection E2' as <-.
        eapply in_elem; [exact E2|rewrite D2; exact D| | |exact P2'|].
        - eapply path_frame; [exact Pa|]. intros x cx Hx. apply Fr. apply (atts_in_within _ _ _ _ _ At) in Hx. unfold within in Hx. lia.
        - eapply atts_in_mono; [| |eapply atts_in_frame; [|exact At]]; [lia|exact Le|]. intros x cx Hx. apply Fr. unfold within in Hx. lia.
        - eapply (proj2 (inside_mono h2 (nxt h1) (nxt h2) (Pos.succ e) (nxt h2) _ _)), laid_insides, La2.
          Unshelve. lia. lia. }
      destruct (IH2 (with_heap h2 s) p (ks ++ [e])) as (h3 & ks3 & R3 & LV3 & K3 & La3).
      * eapply current_kept; eassumption.
      * eapply level_kept; [exact LV1|exact K2|apply LV2|exact Npe].
      * intros _ (z & Z & Kz). rewrite lasto_snoc in Z. injection Z as <-. unfold kind, data_of in Kz. cbn in Kz. rewrite E2 in Kz. cbn in Kz.
        rewrite D2, D in Kz. discriminate.
      * intros X w Hw. apply (Nx X w). right. exact Hw.
      * eapply short_cons, Sr.
      * exists h3, (e :: ks3). cbn [feed]. rewrite R, feed_app. unfold with_heap in R1 at 1. cbn [tb_doc tb_elem] in R1.
        rewrite R1. cbn [feed]. rewrite Re. split; [exact R3|].
        rewrite <- app_assoc in LV3. split; [exact LV3|]. eapply then_rest; eassumption.
Qed.
End Build.

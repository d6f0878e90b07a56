(* Every document of the grammar without CDATA sections, whose start tags
   repeat no attribute, describes a tree; a start event that repeats an
   attribute is refused by the tree builder. *)
From Coq Require Import FMapPositive.
From Verif Require Import Base Utf8 Utf8Proofs EscapeProofs Scan Parser Complete DocComplete Heap TreeBuilder TreeShape TreeOps Forest ForestOps
  ForestAttr History TreeCalls Xml Mirror XmlBuild XmlSteps XmlElem XmlTree XmlParse.
From Verif Require Import XmlSpec Grammar XmlRound.

(* the names of the attributes a start event reports *)
Definition att_names (a : list attr) : list str := flat_map (fun x => match x with AAttr l p _ => [att_name p l] | ADefault _ _ _ => [] end) a.
(* no start tag repeats an attribute; there are no CDATA sections *)
Definition distinct_atts (evs : list event) : Prop := forall l p u ns a, In (EStartElement l p u ns a) evs -> NoDup (att_names a).
Definition no_cdata (evs : list event) : Prop := forall s, ~ In (ECDataBlock s) evs.

Lemma mirrors_names a b : mirrors_atts a b -> map fst b = att_names a.
Proof. induction 1 as [|l p rs a b V M IH|l p raw a b M IH]; cbn; [reflexivity| |exact IH]. f_equal. exact IH. Qed.

Lemma reference_char t x r : reference t = Some (x, r) -> xml_char x = true.
Proof.
  unfold reference. intros H.
  repeat match type of H with
  | context [match ?z with _ => _ end] => is_var z; destruct z
  | context [number ?a ?b ?c ?d ?e] => destruct (number a b c d e) as [[? ?]|]
  | context [if xml_char ?z then _ else _] => destruct (xml_char z) eqn:?
  end; try discriminate; injection H as <- <-; first [assumption | reflexivity].
Qed.
Lemma xml_valid x : xml_char x = true -> valid_rune x = true.
Proof. unfold xml_char, valid_rune. rewrite !orb_true_iff, !andb_true_iff. lia. Qed.

Lemma amp_cons r rs : amp_escaped (r :: rs) = (if r =? 38 then s_ "&#38;" else [r]) ++ amp_escaped rs.
Proof. reflexivity. Qed.
Lemma attlit_runes q lit v : attlit q lit v -> exists rs, Forall (fun r => valid_rune r = true) rs /\ v = utf8 (amp_escaped rs).
Proof.
  assert (One : forall x rs v, valid_rune x = true -> x <> 38 -> Forall (fun r => valid_rune r = true) rs -> v = utf8 (amp_escaped rs) ->
    exists rs0, Forall (fun r => valid_rune r = true) rs0 /\ utf8 [x] ++ v = utf8 (amp_escaped rs0)).
  { intros x rs v0 V N F ->. exists (x :: rs). split; [constructor; assumption|]. rewrite amp_cons.
    replace (x =? 38) with false by lia. unfold utf8. rewrite flat_map_app. reflexivity. }
  induction 1 as [|c t v0 L B Q1 Q2 Q3 A (rs & V & ->)|c t v0 B C A (rs & V & ->)|t x t' v0 R X1 X2 A (rs & V & ->)|t t' v0 R A (rs & V & ->)].
  - exists []. split; [constructor|reflexivity].
  - eapply One; [apply legal_valid, L|exact Q3|exact V|reflexivity].
  - apply (One 32 rs); [reflexivity|lia|exact V|reflexivity].
  - eapply One; [eapply xml_valid, reference_char, R|exact X1|exact V|reflexivity].
  - exists (38 :: rs). split; [constructor; [reflexivity|exact V]|]. rewrite amp_cons. cbn [Z.eqb Pos.eqb].
    unfold utf8. rewrite flat_map_app. reflexivity.
Qed.

Lemma atts_mirror E t a d : atts E t a d -> exists a', mirrors_atts a a'.
Proof.
  induction 1 as [b|b p l e1 e2 q lit v s a d Nb Bb Q X1 X2 B1 B2 Hq Al A (a' & IH)|b l e1 e2 q lit v s a d Nb Bb Q X1 X2 B1 B2 Hq Al N1 N2 U A IH|b e1 e2 q lit v Nb Bb B1 B2 Hq Al Nv].
  - exists []. constructor.
  - destruct (attlit_runes _ _ _ Al) as (rs & V & ->). eexists. constructor; [exact V|exact IH].
  - exact IH.
  - exists []. constructor.
Qed.

Lemma mirrors_one evs xs : mirrors evs xs -> forall s p u ns a a' l' p' u' evs2 xs2, mirrors_atts a a' -> NoDup (att_names a) -> mirrors evs2 xs2 ->
  mirrors ((EStartElement s p u (map Some ns) a :: evs ++ [EEndElement l' p' u']) ++ evs2) (XElem s (space p u) ns a' xs :: xs2).
Proof.
  intros M s p u ns a a' l' p' u' evs2 xs2 Ma Nd M2. cbn [app]. rewrite <- app_assoc. cbn [app].
  apply mi_elem; [exact Ma|rewrite (mirrors_names _ _ Ma); exact Nd|exact M|exact M2].
Qed.

Scheme content_both := Induction for content Sort Prop
  with element_both := Induction for element Sort Prop.
Combined Scheme content_element from content_both, element_both.

Lemma distinct_app a b : distinct_atts (a ++ b) -> distinct_atts a /\ distinct_atts b.
Proof. intros H. split; intros l p u ns x Hx; eapply H, in_or_app; [left|right]; exact Hx. Qed.
Lemma no_cdata_app a b : no_cdata (a ++ b) -> no_cdata a /\ no_cdata b.
Proof. intros H. split; intros s Hs; eapply H, in_or_app; [left|right]; exact Hs. Qed.
Lemma distinct_tl e b : distinct_atts (e :: b) -> distinct_atts b.
Proof. intros H l p u ns x Hx. eapply H. right. exact Hx. Qed.
Lemma no_cdata_tl e b : no_cdata (e :: b) -> no_cdata b.
Proof. intros H s Hs. eapply H. right. exact Hs. Qed.

Lemma grammar_mirror E :
  (forall ns s evs d, content E ns s evs d -> distinct_atts evs -> no_cdata evs -> exists xs, mirrors evs xs) /\
  (forall ns s evs d, element E ns s evs d -> distinct_atts evs -> no_cdata evs ->
     exists x, (forall t, x <> XText t) /\ forall evs2 xs2, mirrors evs2 xs2 -> mirrors (evs ++ evs2) (x :: xs2)).
Proof.
  assert (K : forall ns, (forall s evs d (C : content E ns s evs d), distinct_atts evs -> no_cdata evs -> exists xs, mirrors evs xs) /\
    (forall s evs d (C : element E ns s evs d), distinct_atts evs -> no_cdata evs ->
     exists x, (forall t, x <> XText t) /\ forall evs2 xs2, mirrors evs2 xs2 -> mirrors (evs ++ evs2) (x :: xs2))).
  2:{ split; intros ns; apply (K ns). }
  intros ns. apply (content_element E
    (fun ns s evs d _ => distinct_atts evs -> no_cdata evs -> exists xs, mirrors evs xs)
    (fun ns s evs d _ => distinct_atts evs -> no_cdata evs ->
     exists x, (forall t, x <> XText t) /\ forall evs2 xs2, mirrors evs2 xs2 -> mirrors (evs ++ evs2) (x :: xs2))); clear ns; intros ns.
  - intros _ _. exists []. constructor.
  - intros t t' s evs d T Eo Sm C IH D N. destruct (IH (distinct_tl _ _ D) (no_cdata_tl _ _ N)) as (xs & M).
    eexists. eapply mirrors_char; [left; reflexivity|exact M].
  - intros t x s evs d R X C IH D N. destruct (IH (distinct_tl _ _ D) (no_cdata_tl _ _ N)) as (xs & M).
    eexists. eapply mirrors_char; [left; reflexivity|exact M].
  - intros b b' s evs d T Eo C IH D N. destruct (IH (distinct_tl _ _ D) (no_cdata_tl _ _ N)) as (xs & M).
    eexists. apply mi_comment, M.
  - intros t s evs d T C IH D N. destruct (IH (distinct_tl _ _ D) (no_cdata_tl _ _ N)) as (xs & M). eexists. apply mi_pi, M.
  - intros t b x s evs d T Nb Bb P C IH D N. destruct (IH (distinct_tl _ _ D) (no_cdata_tl _ _ N)) as (xs & M). eexists. apply mi_pi, M.
  - intros b b' s evs d T Eo C IH D N. exfalso. eapply N. left. reflexivity.
  - intros x s evs1 d1 evs d El IH1 C IH2 D N. apply distinct_app in D as [D1 D2]. apply no_cdata_app in N as [N1 N2].
    destruct (IH1 D1 N1) as (y & _ & M1). destruct (IH2 D2 N2) as (xs & M2). eexists. apply M1, M2.
  - intros p l t a d u Q A R D N. destruct (atts_mirror _ _ _ _ A) as (a' & Ma).
    exists (XElem (utf8 l) (space (utf8 p) u) d a' []). split; [discriminate|]. intros evs2 xs2 M2.
    apply (mirrors_one [] []); [constructor|exact Ma| |exact M2]. eapply D. left. reflexivity.
  - intros p l t a d u s evs d1 Q A R C IH Sl D N. destruct (atts_mirror _ _ _ _ A) as (a' & Ma).
    assert (Da : NoDup (att_names a)) by (eapply D; left; reflexivity).
    apply distinct_app in D as [_ D]. apply distinct_app in D as [D _]. apply no_cdata_app in N as [_ N]. apply no_cdata_app in N as [N _].
    destruct (IH D N) as (xs & M).
    exists (XElem (utf8 l) (space (utf8 p) u) d a' xs). split; [discriminate|]. intros evs2 xs2 M2.
    apply (mirrors_one evs xs M); assumption.
Qed.

Lemma misc_mirror E s evs : misc E s evs -> exists xs, (forall t, ~ In (XText t) xs) /\ forall evs2 xs2, mirrors evs2 xs2 -> mirrors (evs ++ evs2) (xs ++ xs2).
Proof.
  induction 1 as [|c s evs B M IH|b b' s evs C Eo M (xs & Nt & IH)|t s evs P M (xs & Nt & IH)|t b x s evs P Nb Bb Px M (xs & Nt & IH)].
  - exists []. split; [intros t []|auto].
  - exact IH.
  - exists (XComment (utf8 b') :: xs). split; [intros t [X|X]; [discriminate|exact (Nt t X)]|]. intros evs2 xs2 M2. cbn [app]. apply mi_comment, IH, M2.
  - eexists (XPI _ _ :: xs). split; [intros t0 [X|X]; [discriminate|exact (Nt t0 X)]|]. intros evs2 xs2 M2. cbn [app]. apply mi_pi, IH, M2.
  - eexists (XPI _ _ :: xs). split; [intros t0 [X|X]; [discriminate|exact (Nt t0 X)]|]. intros evs2 xs2 M2. cbn [app]. apply mi_pi, IH, M2.
Qed.

Lemma three_mirror E m1 x m2 e1 e2 e3 d : misc E m1 e1 -> element E [] x e2 d -> misc E m2 e3 ->
  distinct_atts (e1 ++ e2 ++ e3) -> no_cdata (e1 ++ e2 ++ e3) -> exists xs, mirrors (e1 ++ e2 ++ e3) xs /\ no_text xs.
Proof.
  intros M1 El M2 D N. apply distinct_app in D as [_ D]. apply distinct_app in D as [D _]. apply no_cdata_app in N as [_ N]. apply no_cdata_app in N as [N _].
  destruct (misc_mirror _ _ _ M1) as (x1 & T1 & K1). destruct (misc_mirror _ _ _ M2) as (x3 & T3 & K3).
  destruct (proj2 (grammar_mirror E) _ _ _ _ El D N) as (y & Ty & Ky).
  exists (x1 ++ y :: x3 ++ []). split.
  - apply K1, Ky. rewrite <- (app_nil_r e3). apply K3. constructor.
  - intros t H. rewrite app_nil_r in H. apply in_app_or in H as [H|[H|H]]; [exact (T1 t H)|exact (Ty t H)|exact (T3 t H)].
Qed.

Theorem document_mirror E src i evs d : document E src i evs d -> distinct_atts evs -> no_cdata evs ->
  exists xs, mirrors evs xs /\ no_text xs.
Proof. intros [m1 x m2 e1 e2 e3 d' M1 El M2 _|h v enc sa m1 x m2 e1 e2 e3 d' _ _ M1 El M2] D N; eapply three_mirror; eassumption. Qed.

(* ---- one tree only ---- *)
(* a repeated attribute *)
Lemma dressed_dup n h0 e nm sp defs A l h name rs :
  dressed h0 e nm sp defs A l h -> Forall (fun r => valid_rune r = true) rs -> In name (map fst l) ->
  (List.length rs < n)%nat ->
  exists h', SetAttribute n e name (utf8 (ampesc rs)) h = (Fail "ErrDuplicateAttribute"%string, h').
Proof.
  intros [W Ok X E Lt (c0 & props0 & Ec & Lc & Dc & P) At] Vr Nn Ln. pose proof W as (F & G & FH).
  assert (Te : typeOf (dat c0) = ElementNode) by (rewrite Dc; reflexivity).
  destruct (SetAttribute_forest n h F G e c0 name (utf8 (ampesc rs)) rs FH Ec Te (runes_amp _ (amp_valid _ Vr)) (ampesc_nil rs) Ln)
    as (r & h' & R & Ef & F' & G' & FH').
  assert (PA : forall A' k par pv nx, linked h par pv nx (N e A' k) -> map fst A' = A).
  { intros A' k par pv nx L. apply linked_eq in L as [(c & M1 & M2 & M3) _]. rewrite Ec in M1. injection M1 as <-.
    rewrite Dc in M3. cbn [props_ok] in M3. destruct M3 as [Ep Ac]. pose proof (achain_path _ _ _ Ac) as P2.
    rewrite <- Ep in P2. exact (path_fun _ _ _ P2 _ P). }
  destruct Ef as [o A' k par pv nx a ks h1 h' L M Ad Nn'|o A' k par pv nx a ks x h' L M Hx Hn]; [|exists h'; exact R].
  exfalso. rewrite (PA _ _ _ _ _ L) in Nn'. clear - At Nn Nn'.
  assert (Q : exists x, In x A /\ attr_named h name x).
  { clear Nn'. induction At as [|a y A l H1 H2 IH]; [destruct Nn|]. destruct Nn as [<-|Nn].
    - exists a. split; [left; reflexivity|]. destruct H1; do 2 eexists; split; eassumption.
    - destruct (IH Nn) as (x & Hx & Hn). exists x. split; [right; exact Hx|exact Hn]. }
  destruct Q as (x & Hx & Hn). exact (Nn' x Hx Hn).
Qed.
Lemma dup_attrs n h0 e nm sp defs atts atts' : mirrors_atts atts atts' -> forall A l h,
  dressed h0 e nm sp defs A l h -> NoDup (map fst l) -> ~ NoDup (map fst (l ++ atts')) ->
  (forall a b v, In (AAttr a b v) atts -> (List.length v < n)%nat) ->
  exists h', setAttributes n e atts h = (Fail "ErrDuplicateAttribute"%string, h').
Proof.
  induction 1 as [|lo p rs a b V M IH|lo p raw a b M IH]; intros A l h D Nl Nd Sh; cbn [setAttributes].
  - exfalso. apply Nd. rewrite app_nil_r. exact Nl.
  - change (amp_escaped rs) with (ampesc rs) in *.
    assert (Ln : (List.length rs < n)%nat).
    { pose proof (ampesc_length rs). specialize (Sh lo p _ (or_introl eq_refl)). change (amp_escaped rs) with (ampesc rs) in Sh. lia. }
    change (prefixed p lo) with (att_name p lo).
    destruct (in_dec (list_eq_dec Z.eq_dec) (att_name p lo) (map fst l)) as [In1|Nn].
    + destruct (dressed_dup n _ _ _ _ _ _ _ _ (att_name p lo) rs D V In1 Ln) as (h1 & R). exists h1.
      unfold hbind. rewrite R. reflexivity.
    + destruct (dressed_attr n _ _ _ _ _ _ _ _ (att_name p lo) rs D V Nn Ln) as (h1 & x & R & D1).
      rewrite (hbind_ret _ _ _ _ _ R). cbv beta. apply (IH _ _ _ D1).
      * rewrite map_app. cbn [map fst]. apply NoDup_Add with (a := att_name p lo) (l := map fst l); [|auto].
        rewrite <- (app_nil_r (map fst l)) at 1. apply Add_app.
      * rewrite <- app_assoc. exact Nd.
      * intros a0 b0 v Hv. eapply Sh. right. exact Hv.
  - apply (IH _ _ _ D Nl Nd). intros a0 b0 v Hv. eapply Sh. right. exact Hv.
Qed.

Theorem repeated_refused n s v l pf u ns atts atts' : wf (tb_heap s) -> mirrors_atts atts atts' -> ~ NoDup (map fst atts') ->
  (forall a b w, In (AAttr a b w) atts -> (List.length w < n)%nat) ->
  exists h', tb_event n s v (EStartElement l pf u (map Some ns) atts) =
    ({| tb_heap := h'; tb_doc := tb_doc s; tb_elem := tb_elem s |}, HError 1).
Proof.
  intros W Ma Nd Sh.
  destruct (dressed_new (tb_heap s) (tb_doc s) l W) as (ha & Ra & Da).
  destruct (dressed_space _ _ _ _ _ _ _ _ pf u Da) as (hb & Rb & Db).
  destruct (dressed_defs _ _ _ _ _ _ ns _ _ Db) as (hc & Rc & Dc).
  destruct (dup_attrs n _ _ _ _ _ atts atts' Ma _ _ _ Dc (NoDup_nil _) Nd Sh) as (h2 & Rd).
  exists h2. unfold tb_event, tb_action, startElement.
  assert (R : (x <- (e <- CreateElement (tb_doc s) l ;; match u with [] => hret tt | _ => SetNamespace e pf u true end ;;
     setNamespaces e (map Some ns) ;; setAttributes n e atts ;; attach (tb_doc s) (tb_elem s) e ;; hret e) ;; hret (tb_doc s, Some x))%heap (tb_heap s)
     = (Fail "ErrDuplicateAttribute"%string, h2)).
  2:{ rewrite R. reflexivity. }
  unfold hbind at 1. rewrite (hbind_ret _ _ _ _ _ Ra). cbv beta. rewrite (hbind_ret _ _ _ _ _ Rb). cbv beta.
  rewrite (hbind_ret _ _ _ _ _ Rc). cbv beta. unfold hbind. rewrite Rd. reflexivity.
Qed.

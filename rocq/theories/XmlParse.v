(* From the events of a whole document, and from its text, to the tree. *)
From Coq Require Import FMapPositive.
From Verif Require Import Base Utf8 Utf8Proofs XmlSpec EscapeProofs Scan Parser Grammar Complete DocComplete Heap TreeBuilder TreeShape TreeOps Forest
  History TreeCalls Xml Mirror XmlBuild XmlSteps XmlElem XmlTree.

(* ---- a whole document ---- *)
Lemma level_doc vs en sa : let h := with_new empty_heap {| lk := nolinks; owner := None; dat := DDoc vs en sa None None |} in
  level h 1%positive [] /\ kind h 1%positive = Some DocumentNode.
Proof.
  assert (W : wf empty_heap) by (eexists _, _; apply forest_empty).
  destruct (new_node empty_heap None (DDoc vs en sa None None) W I) as (W1 & X1 & N1 & E1). cbv zeta in *.
  set (h := with_new _ _) in *. change (nxt empty_heap) with 1%positive in *.
  split; [|unfold kind, data_of; rewrite E1; reflexivity].
  constructor; [exact W1| | |intros []|intros z; discriminate].
  - eexists. split; [exact E1|]. split; [exact I|]. cbn. discriminate.
  - eapply children_by_path; [apply wf_consistent, W1|exact E1|reflexivity|]. constructor.
Qed.

Theorem build_document n v evs xs : v_inSubset v <> 1 /\ v_inSubset v <> 2 -> mirrors evs xs -> no_text xs -> short n evs ->
  exists s d, feed n v tb_init (EStartDocument :: evs ++ [EEndDocument]) = Some s /\ tb_doc s = Some d /\ tb_elem s = None /\
    wf (tb_heap s) /\ document_is (tb_heap s) d (v_version v) (v_encoding v) (v_standalone v) xs.
Proof.
  intros Hv M Nt Sh. destruct (level_doc (v_version v) (v_encoding v) (v_standalone v)) as [LV Kd].
  set (h := with_new _ _) in *. set (s := {| tb_heap := h; tb_doc := Some 1%positive; tb_elem := None |}).
  destruct (build n v Hv evs xs M s 1%positive []) as (h' & ks & R & LV' & K & La); cbn [tb_heap tb_doc tb_elem s] in *.
  - split; [discriminate|]. cbn. auto.
  - exact LV.
  - intros _ (z & Z & _). discriminate.
  - intros _. exact Nt.
  - exact Sh.
  - exists (with_heap h' s), 1%positive. cbn [with_heap tb_heap tb_doc tb_elem]. split.
    { change (EStartDocument :: evs ++ [EEndDocument]) with ([EStartDocument] ++ evs ++ [EEndDocument]). rewrite !feed_app.
      change (feed n v tb_init [EStartDocument]) with (Some s). cbv iota beta. rewrite feed_app, R. reflexivity. }
    split; [reflexivity|]. split; [reflexivity|]. split; [apply LV'|].
    destruct (lv_ch _ _ _ LV') as (c' & E' & P' & _). cbn [app] in P'.
    assert (E0 : hget h 1%positive = Some {| lk := nolinks; owner := None; dat := DDoc (v_version v) (v_encoding v) (v_standalone v) None None |})
      by reflexivity.
    destruct (kept_dat _ _ _ _ _ _ K E0) as (c2 & E2 & D2 & _). rewrite E' in E2. injection E2 as <-.
    exists c', None, None. split; [exact E'|]. split; [exact D2|].
    eapply (proj2 (inside_is h' (nxt h) (nxt h'))); [apply laid_insides, La|exact P'].
Qed.

(* ---- sequences of events from text ---- *)
Lemma same_text_event e e' t : text_event e t -> same_text e e' -> text_event e' t.
Proof.
  intros H [->|(t' & -> & -> & _)]; [exact H|]. destruct H as [[= ->]|H]; [right; reflexivity|discriminate].
Qed.
Lemma same_text_start e e' t : text_event e' t -> same_text e e' -> text_event e t.
Proof. intros H [->|(t' & -> & -> & _)]; [exact H|]. destruct H as [H|[= ->]]; [discriminate|left; reflexivity]. Qed.
Lemma same_text_other e e' : same_text e e' -> (forall t, e <> ECharacters t) -> e' = e.
Proof. intros [->|(t & -> & _)] H; [reflexivity|exfalso; eapply H; reflexivity]. Qed.

Lemma mirrors_same evs xs : mirrors evs xs -> forall evs', Forall2 same_text evs evs' -> mirrors evs' xs.
Proof.
  induction 1 as [|tevs ts evs xs Ne F Ns M IH|t evs xs M IH|t d evs xs M IH|l pf u ns atts atts' body kids l' pf' u' evs xs Ma Nd M1 IH1 M2 IH2];
    intros evs' H.
  - inversion H; subst. constructor.
  - apply Forall2_app_inv_l in H as (a & b & Ha & Hb & ->). apply mi_text.
    + intros ->. inversion Ha; subst. contradiction.
    + clear - F Ha. revert a Ha. induction F as [|e t tevs ts He F IH]; intros a Ha; inversion Ha; subst; constructor; eauto using same_text_event.
    + intros (e & t & r & -> & He). inversion Hb as [|e0 ? r0 ? H1 H2]; subst. apply Ns. exists e0, t, r0. eauto using same_text_start.
    + auto.
  - inversion H as [|? e ? r H1 H2]; subst. apply same_text_other in H1; [|discriminate]. subst e. constructor. auto.
  - inversion H as [|? e ? r H1 H2]; subst. apply same_text_other in H1; [|discriminate]. subst e. constructor. auto.
  - inversion H as [|? e ? r H1 H2]; subst. apply same_text_other in H1; [|discriminate]. subst e.
    apply Forall2_app_inv_l in H2 as (a & b & Ha & Hb & ->). inversion Hb as [|? e ? r H3 H4]; subst.
    apply same_text_other in H3; [|discriminate]. subst e. constructor; auto.
Qed.

(* a character event in front *)
Definition join (x : xnode) (xs : list xnode) : list xnode :=
  match x, xs with
  | XText s, XText s' :: r => XText (s ++ s') :: r
  | _, _ => x :: xs
  end.
Lemma mirrors_char e t evs xs : text_event e t -> mirrors evs xs -> mirrors (e :: evs) (join (XText t) xs).
Proof.
  intros He M. inversion M as [|tevs ts evs' xs' Ne F Ns M'|c evs' xs' M'|c d evs' xs' M'|l pf u ns atts atts' body kids l' pf' u' evs' xs' Ma Nd M1 M2]; subst; cbn [join].
  - rewrite <- (app_nil_r t). change (XText (t ++ [])) with (XText (concat [t])). apply (mi_text [e] [t]); [discriminate|constructor; [exact He|constructor]| |constructor].
    intros (x & y & z & X & _). discriminate.
  - change (t ++ concat ts) with (concat (t :: ts)). change (e :: tevs ++ evs') with ((e :: tevs) ++ evs').
    apply mi_text; [discriminate|constructor; assumption|exact Ns|exact M'].
  - rewrite <- (app_nil_r t). change (XText (t ++ [])) with (XText (concat [t])). apply (mi_text [e] [t]); [discriminate|constructor; [exact He|constructor]| |exact M].
    intros (x & y & z & X & [Y|Y]); injection X as <- _; discriminate.
  - rewrite <- (app_nil_r t). change (XText (t ++ [])) with (XText (concat [t])). apply (mi_text [e] [t]); [discriminate|constructor; [exact He|constructor]| |exact M].
    intros (x & y & z & X & [Y|Y]); injection X as <- _; discriminate.
  - rewrite <- (app_nil_r t). change (XText (t ++ [])) with (XText (concat [t])). apply (mi_text [e] [t]); [discriminate|constructor; [exact He|constructor]| |exact M].
    intros (x & y & z & X & [Y|Y]); injection X as <- _; discriminate.
Qed.

(* ---- enough fuel ---- *)
Definition att_len (a : attr) : nat := match a with AAttr _ _ w => List.length w | _ => 0%nat end.
Definition ev_len (e : event) : nat := match e with EStartElement _ _ _ _ atts => list_max (map att_len atts) | _ => 0%nat end.
Definition evs_len (evs : list event) : nat := list_max (map ev_len evs).
Lemma list_max_in l x : In x l -> (x <= list_max l)%nat.
Proof.
  intros H. assert (X := proj1 (list_max_le l (list_max l)) (le_n _)). rewrite Forall_forall in X. auto.
Qed.
Lemma evs_short n evs : (evs_len evs < n)%nat -> short n evs.
Proof.
  intros H l pf u ns atts a b w H1 H2.
  apply (in_map ev_len) in H1. apply list_max_in in H1. cbn [ev_len] in H1.
  apply (in_map att_len) in H2. apply list_max_in in H2. cbn [att_len] in H2. unfold evs_len in H. lia.
Qed.
Lemma same_short n evs evs' : Forall2 same_text evs evs' -> short n evs -> short n evs'.
Proof.
  intros F S l pf u ns atts a b w H. apply (S l pf u ns atts). clear - F H. induction F as [|e e' evs evs' H1 H2 IH]; [destruct H|].
  destruct H as [->|H]; [|right; auto]. left. destruct H1 as [->|(t & -> & X & _)]; [reflexivity|discriminate].
Qed.

(* ---- the handler ---- *)
Lemma deliver_feed n v : forall evs s t s', feed n v s evs = Some s' -> exists t', deliver tb (treeH n) v (s, t) evs = Some (s', t').
Proof.
  induction evs as [|e evs IH]; intros s t s' H; cbn [feed] in H.
  - injection H as <-. eexists. reflexivity.
  - cbn [deliver fst snd]. change (h_event (treeH n) s v e) with (tb_event n s v e).
    destruct (tb_event n s v e) as [s1 []]; try discriminate. eapply IH, H.
Qed.

Theorem parse_document E src i evs d xs : env_ok E -> document E src i evs d -> declared_once evs d ->
  mirrors evs xs -> no_text xs ->
  forall bom n m, bom_ok bom -> (List.length src < n)%nat -> (evs_len evs < m)%nat ->
  exists s' p, Parse E tb (treeH m) n tb_init (bom ++ utf8 src) = (Ret tt, s') /\ tb_doc (hs s') = Some p /\
    wf (tb_heap (hs s')) /\
    document_is (tb_heap (hs s')) p (di_version i) (match di_encoding i with Some e => e | None => [] end) (sa_code (di_standalone i)) xs.
Proof.
  intros OK D Once M Nt bom n m Hb Hn Hm.
  destruct (document_st E OK tb (treeH m) src i evs d D Once bom n tb_init (tb_init, [(ESetDocumentLocator, HNil)]) Hb Hn eq_refl) as (evs0 & F & R).
  inversion F as [|? e ? r F1 F2]; subst. apply same_text_other in F1; [|discriminate]. subst e.
  apply Forall2_app_inv_l in F2 as (a & b & Fa & Fb & ->). inversion Fb as [|? e ? r F3 F4]; subst. inversion F4; subst.
  apply same_text_other in F3; [|discriminate]. subst e.
  destruct (build_document m (docview i) a xs) as (s & p & Fd & Ds & _ & W & Is).
  - cbn. split; discriminate.
  - eapply mirrors_same; eassumption.
  - exact Nt.
  - eapply same_short; [exact Fa|]. apply evs_short, Hm.
  - destruct (deliver_feed _ _ _ _ [(ESetDocumentLocator, HNil)] _ Fd) as (t' & Dl).
    destruct (R _ Dl) as (s' & Ps & Hs & _). cbn [fst] in Hs. exists s', p. rewrite Hs. auto.
Qed.

(* Without leniencies the grammar of Loose.v is the grammar of Grammar.v. *)
From Verif Require Import Base Utf8 Utf8Proofs XmlSpec Scan Parser Grammar Complete Loose.
From Coq Require Import ZifyBool.

Definition none (x : leniency) : Prop := False.

Section S.
Variable E : env.

Lemma strict_name : forall n, lname none E n -> ncname E n.
Proof. intros n (H1 & H2 & H3). split; [|auto]. destruct n; [auto|]. destruct H1 as [[H1|[_ []]] H4]. auto. Qed.
Lemma strict_nul : forall z, nul none z -> z = [].
Proof. intros z [->|[_ []]]. reflexivity. Qed.
Lemma strict_qname : forall n p l, lqname none E n p l -> qnamed E p l /\ n = qname p l.
Proof.
  intros n p l Hq. destruct Hq as [n z Hn Hz|n z m y Hn Hz Hm Hy|n z Hn Hz []].
  - apply strict_nul in Hz. subst z. rewrite app_nil_r. split; [|reflexivity]. split; [auto|apply strict_name; auto].
  - apply strict_nul in Hz. apply strict_nul in Hy. subst z y. apply strict_name in Hn. apply strict_name in Hm. split; [split; auto|].
    destruct n as [|c n]; [destruct Hn as [[] _]|]. cbn [app qname]. rewrite app_nil_r. reflexivity.
Qed.
Lemma strict_ref : forall t x s, lref none t x s -> reference t = Some (x, s) /\ x <> 65533.
Proof. intros t x s Hr. destruct Hr as [| ? ? ? ? ? [] | ? ? ? ? ? [] | ? ? ? ? ? []]. auto. Qed.
Lemma strict_attlit : forall q l v, lattlit none q l v -> attlit q l v.
Proof.
  intros q l v Hl. induction Hl as [|c t v|c t v Hb Hc|t x t' v Hr|t t' v Hr]; try constructor; auto.
  - destruct Hc as [|[]]; auto.
  - apply strict_ref in Hr as [? ?]. eapply al_ref; eauto.
  - apply strict_ref in Hr as [? ?]. eapply al_amp; eauto.
Qed.
Lemma strict_attr : forall w p l v, lattr none E w p l v -> exists e1 e2 q lit, qnamed E p l /\ blanks e1 /\ blanks e2 /\
  (q = 34 \/ q = 39) /\ attlit q lit v /\ w = qname p l ++ e1 ++ [61] ++ e2 ++ [q] ++ lit ++ [q].
Proof.
  intros w p l v Hw. destruct Hw as [n p l e1 c e2 w v Hq H1 Hc H2 Hv]. apply strict_qname in Hq as [Hq ->]. destruct Hc as [->|[[] _]].
  destruct Hv as [[]|q lit v Hqq Hl]. apply strict_attlit in Hl. exists e1, e2, q, lit. auto 10.
Qed.
Lemma strict_sep : forall b, sep none b -> b <> [] /\ blanks b.
Proof. intros b [H1 [H2|[]]]. auto. Qed.
Lemma strict_atts : forall tab s a d tab', latts none E tab s a d tab' -> atts E s a d.
Proof.
  intros tab s a d tab' Ht. induction Ht as [tab b Hb|tab b w p l v s a d tab' Hs Hw N1 N2 _ IH|tab b w l v s a d tab' Hs Hw N1 N2 N3 N4 Hu _ _ _ IH
    |tab b w s a d tab' Hs Hw []|tab b w v Hs Hw Hv|tab b w v c s a d tab' Hs Hw _ []].
  - constructor. auto.
  - apply strict_sep in Hs as [? ?]. apply strict_attr in Hw as (e1 & e2 & q & lit & ? & ? & ? & ? & ? & ->). rewrite <- !app_assoc. cbn [app]. apply at_attr; auto.
  - apply strict_sep in Hs as [? ?]. apply strict_attr in Hw as (e1 & e2 & q & lit & [_ ?] & ? & ? & ? & ? & ->). rewrite <- !app_assoc. cbn [app]. apply at_decl; auto.
  - apply strict_sep in Hs as [? ?]. apply strict_attr in Hw as (e1 & e2 & q & lit & [_ ?] & ? & ? & ? & ? & ->). destruct Hv as [Hv|[]]. apply at_default; auto.
Qed.
Lemma strict_tag : forall ns tab t p l u k a d tab', ltag none E ns tab t p l u k a d tab' ->
  exists r, t = qname p l ++ r /\ qnamed E p l /\ atts E r a d /\ resolves (rev d ++ ns) (utf8 p) u /\ k = map Some d.
Proof.
  intros ns tab t p l u k a d tab' Ht. destruct Ht as [n p l t a d tab' u Hq _ Ha Hu _ Hr Hk]. apply strict_qname in Hq as [Hq ->]. apply strict_atts in Ha.
  destruct Hr as [Hr|[]]. destruct Hk as [Hk|[]]. exists t. auto.
Qed.

Scheme lcontent_mut := Minimality for lcontent Sort Prop with lelement_mut := Minimality for lelement Sort Prop.

Definition PC (ns tab : list (str * str)) (s : list Z) (evs : list event) (d tab' : list (str * str)) : Prop :=
  exists evs', content E ns s evs' d /\ Forall2 same_text evs' evs.
Definition PE (ns tab : list (str * str)) (s : list Z) (evs : list event) (d tab' : list (str * str)) : Prop :=
  exists evs', element E ns s evs' d /\ Forall2 same_text evs' evs.
Lemma same1 : forall e evs' evs, Forall2 same_text evs' evs -> Forall2 same_text (e :: evs') (e :: evs).
Proof. intros e a b Hf. constructor; [|auto]. left. reflexivity. Qed.
Lemma eol_blanks : forall t t', eol t t' -> blanks t -> blanks t' /\ (t <> [] -> t' <> []).
Proof.
  intros t t' He. induction He; intros Hb.
  - auto.
  - inversion Hb; subst. inversion H2; subst. destruct (IHHe H4). split; [constructor; auto|discriminate].
  - inversion Hb; subst. destruct (IHHe H3). split; [constructor; auto|discriminate].
Qed.
Lemma blank_text : forall t t', t <> [] -> blanks t -> eol t t' -> utf8 t' <> [] /\ blanks (utf8 t').
Proof.
  intros t t' Hne Hb He. destruct (eol_blanks _ _ He Hb) as [Hb' Hn]. specialize (Hn Hne). clear - Hb' Hn.
  assert (Hu : utf8 t' = t'). { clear Hn. induction Hb' as [|c l Hc Hl IH]; [reflexivity|]. cbn [utf8 flat_map]. unfold utf8 in IH. rewrite IH. rewrite encode_ascii; [reflexivity|]. unfold blank in Hc. lia. }
  rewrite Hu. auto.
Qed.
Lemma strict_both : (forall ns tab s evs d tab', lcontent none E ns tab s evs d tab' -> PC ns tab s evs d tab').
Proof.
  apply (lcontent_mut none E PC PE); unfold PC, PE; intros.
  - exists []. split; constructor.
  - destruct H4 as (e' & Hc & Hs). exists (ECharacters (utf8 t') :: e'). split; [econstructor; eauto|].
    constructor; [|auto]. destruct H1 as [->|[H1 ->]]; [left; reflexivity|right; eexists; split; [reflexivity|split; [reflexivity|]]].
    destruct H as [H _]. eapply blank_text; [exact H|exact H1|exact H0].
  - destruct H1 as (e' & Hc & Hs). apply strict_ref in H as [? ?]. eexists. split; [eapply c_ref; eauto|apply same1; auto].
  - destruct H2 as (e' & Hc & Hs). eexists. split; [eapply c_comment; eauto|apply same1; auto].
  - contradiction.
  - destruct H2 as (e' & Hc & Hs). apply strict_nul in H0. subst z. eexists. split; [eapply c_pi0; eauto|apply same1; auto].
  - destruct H5 as (e' & Hc & Hs). apply strict_nul in H0. subst z. eexists. split; [eapply c_pi; eauto|apply same1; auto].
  - destruct H5 as (e' & Hc & Hs). destruct H2 as [H2|[]]. eexists. split; [eapply c_cdata; eauto|apply same1; auto]. repeat split; auto.
  - destruct H0 as (e1 & Hc1 & Hs1). destruct H2 as (e2 & Hc2 & Hs2). exists (e1 ++ e2). split; [eapply c_elem; eauto|apply Forall2_app; auto].
  - apply strict_tag in H as (r & -> & Hq & Ha & Hr & ->). eexists. split; [|apply same_text_refl]. rewrite <- app_assoc. apply e_empty; auto.
  - contradiction.
  - apply strict_tag in H as (r & -> & Hq & Ha & Hr & ->). destruct H1 as (e' & Hc & Hs). eexists. split; [rewrite <- app_assoc; eapply e_full; eauto|].
    cbn [app]. apply same1. apply Forall2_app; [auto|apply same_text_refl].
Qed.
Lemma strict_element : forall ns tab s evs d tab', lelement none E ns tab s evs d tab' -> exists evs', element E ns s evs' d /\ Forall2 same_text evs' evs.
Proof.
  intros ns tab s evs d tab' He. destruct He.
  - apply strict_tag in H as (r & -> & Hq & Ha & Hr & ->). eexists. split; [|apply same_text_refl]. rewrite <- app_assoc. apply e_empty; auto.
  - contradiction.
  - apply strict_tag in H as (r & -> & Hq & Ha & Hr & ->). apply strict_both in H0 as (e' & Hc & Hs). eexists. split; [rewrite <- app_assoc; eapply e_full; eauto|].
    cbn [app]. apply same1. apply Forall2_app; [auto|apply same_text_refl].
Qed.
Lemma strict_misc : forall s evs, lmisc none E s evs -> misc E s evs.
Proof.
  intros s evs Hm. induction Hm; try contradiction; try (constructor; auto; fail).
  - apply strict_nul in H0. subst z. apply m_pi0; auto.
  - apply strict_nul in H0. subst z. apply m_pi; auto.
Qed.
Lemma strict_header : forall h v enc sa, lheader none h v enc sa -> xml_decl h v enc sa.
Proof. intros h v enc sa Hh. destruct Hh; auto; contradiction. Qed.

Lemma strict_document : forall hdr rest ver enc sa evs d,
  (hdr = [] /\ enc = None /\ sa = None /\ ver = [] /\ has_prefix (s_ "<?xml") rest = false) \/ lheader none hdr ver enc sa ->
  (forall n, enc = Some n -> utf8_name n) -> lbody none E rest evs d ->
  exists evs', document E (hdr ++ rest) {| di_version := ver; di_encoding := enc; di_standalone := sa |} evs' d /\ Forall2 same_text evs' evs.
Proof.
  intros hdr rest ver enc sa evs d Hh Hn Hb. destruct Hb as [m1 x m2 z e1 e2 e3 e4 d tab H1 H2 H3 H4].
  destruct H4 as [|? ? ? []]. rewrite !app_nil_r in *. apply strict_misc in H1. apply strict_misc in H3. apply strict_element in H2 as (e' & He & Hs).
  exists (e1 ++ e' ++ e3). split; [|repeat (apply Forall2_app; auto using same_text_refl)].
  destruct Hh as [(-> & -> & -> & -> & Hp)|Hh].
  - cbn [app]. apply d_plain; auto. intros r ->. rewrite <- !app_assoc in Hp. rewrite has_prefix_app in Hp. discriminate.
  - apply strict_header in Hh. apply d_decl; auto.
Qed.
End S.

(* The documents of the examples of C22_tree_partial in PropertiesPanic.v and of
   C67 in PropertiesEdit.v are fitting. *)
From Verif Require Import Base Utf8 XmlSpec Encoding Scan ScanProofs Parser LexProofs Sample ParserEx NoPanic DtdSafeEx TreeSafeParse TreeSafeEx TreeSafeDoctype.
From Coq Require Import ZifyBool.
Local Open Scope Z_scope.

Lemma fitting_suffix E f l l' : fitting E f l -> suffix l' l -> fitting E f l'.
Proof.
  intros (A & B & C) S. refine (conj (refs_suffix _ _ _ _ A S) (conj _ _)).
  - destruct B as [B|[B D]]; [left; eapply doctype_suffix; eassumption|right]. split; [eapply DtdSafe.tame_suffix; eassumption|].
    destruct S as (p & ->). intros a b ->. apply (D (p ++ a) b). rewrite <- app_assoc. reflexivity.
  - destruct S as (p & ->). rewrite app_length in C. lia.
Qed.
Lemma names_fitting : forall eof pct c rest, suffix rest names_src -> fitting (env0 eof pct) 700 (decode (env0 eof pct) c rest).
Proof. intros eof pct c rest S. destruct (names_by eof pct c rest S) as (A & B & C & _). exact (conj A (conj (or_introl B) C)). Qed.

(* every kind of declaration, attributes of them, and namespaces *)
Definition typed_src : str :=
  s_ "<?xml version='1.0'?><!DOCTYPE r [<!ELEMENT r (a,b?)><!ATTLIST r x NMTOKEN ' 1 ' y CDATA #FIXED 'v&amp;' z ID #IMPLIED><!ENTITY f 'a&#65;b'><!--c-->]><r x=' 2 ' xmlns:p='v'><a p:k='1'>t</a></r>".
Lemma typed_ascii : forall l', suffix l' typed_src -> runes_of l' = l'.
Proof. intros l' Hs. eapply ascii_suffix; [|exact Hs]. apply Forall_forall. assert (X : forallb (fun c => (0 <=? c) && (c <? 128)) typed_src = true) by reflexivity. rewrite forallb_forall in X. intros x Hx. specialize (X x Hx). lia. Qed.
Fixpoint freeb (l : list Z) : bool := negb (has_prefix (s_ "<?") l) && match l with [] => true | _ :: t => freeb t end.
Lemma freeb_at : forall a l, freeb (a ++ l) = true -> freeb l = true.
Proof. induction a as [|c a IH]; intros l H; [exact H|]. cbn [app freeb] in H. apply andb_true_iff in H as [_ H]. auto. Qed.
Lemma freeb_ok l : freeb l = true -> pi_free l.
Proof.
  intros H a b ->. apply freeb_at in H. assert (X : freeb (s_ "<?" ++ b) = false) by reflexivity. congruence.
Qed.
Lemma typed_fits : forall eof pct, fitting (env0 eof pct) 1500 typed_src.
Proof.
  intros eof pct. refine (conj _ (conj (or_intror (conj _ _)) _)).
  - apply ampb_ok. reflexivity.
  - apply tameb_tame. vm_compute. reflexivity.
  - intros a b He x y ->. apply freeb_ok. assert (T : freeb (tl typed_src) = true) by (vm_compute; reflexivity).
    destruct a as [|c a]; [discriminate He|]. apply (f_equal (@tl Z)) in He. rewrite He in T. change (tl ((c :: a) ++ s_ "<!DOCTYPE" ++ x ++ s_ "[" ++ y)) with (a ++ s_ "<!DOCTYPE" ++ x ++ s_ "[" ++ y) in T.
    do 4 apply freeb_at in T. exact T.
  - vm_compute. lia.
Qed.
Lemma typed_by : forall eof pct c rest, suffix rest typed_src ->
  let l := decode (env0 eof pct) c rest in fitting (env0 eof pct) 1500 l /\ one_default l /\ prefixes_named (env0 eof pct) l.
Proof.
  intros eof pct c rest Hs l. subst l. cbn [decode env0]. rewrite (typed_ascii _ Hs). split; [eapply fitting_suffix; [apply typed_fits|exact Hs]|]. split.
  - eapply one_suffix; [|exact Hs]. apply oneb_ok. vm_compute. reflexivity.
  - eapply named_suffix; [|exact Hs]. apply namedb_ok. vm_compute. reflexivity.
Qed.
Lemma typed_percent : late_percent typed_src.
Proof.
  intros pre b r He Hb. exfalso. assert (X : In 37 typed_src) by (rewrite He; apply in_or_app; right; right; left; reflexivity).
  revert X. notin.
Qed.

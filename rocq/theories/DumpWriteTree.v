(* The trees of History.v have only texts under attributes. *)
From Verif Require Import Base Heap TreeShape Forest ForestAdd ForestAttr History DtdHistory Dump DumpWrite DumpWriteProofs.
Local Open Scope nat_scope.

Lemma achain_value h l : forall prev a c nm df k, achain h prev l -> In a (attptrs l) -> hget h a = Some c -> dat c = DAttr nm df ->
  l_first (lk c) = Some k -> exists ks, vchain h a None ks /\ In k ks.
Proof.
  induction l as [|[x ks] r IH]; intros prev a c nm df k V H E D K; [destruct H|]. cbn [achain] in V.
  destruct V as [(cx & V1 & V2 & _) [V4 V5]]. cbn [attptrs flat_map fst snd] in H. destruct H as [<-|H].
  - rewrite V1 in E. injection E as ->. rewrite V2 in K. cbn in K. exists ks. split; [exact V4|].
    destruct ks as [|y ks]; [discriminate|]. injection K as ->. left. reflexivity.
  - apply in_app_or in H as [H|H].
    + destruct (vchain_in _ _ _ _ _ V4 H) as (cy & s & Y1 & _ & _ & _ & Y5). rewrite Y1 in E. injection E as ->. congruence.
    + eapply IH; eassumption.
Qed.
Lemma vchain_next h a ks : forall prev q c p, vchain h a prev ks -> In q ks -> hget h q = Some c -> l_next (lk c) = Some p -> In p ks.
Proof.
  induction ks as [|x r IH]; intros prev q c p V H E N; [destruct H|]. cbn [vchain] in V. destruct V as [(cx & V1 & V2 & _) V4].
  destruct H as [<-|H].
  - rewrite V1 in E. injection E as ->. rewrite V2 in N. cbn in N. destruct r as [|y r]; [discriminate|]. injection N as ->. right. left. reflexivity.
  - right. eapply IH; eassumption.
Qed.
Lemma forest_attr_chain h F G a c nm df : forest h F G -> hget h a = Some c -> dat c = DAttr nm df ->
  exists prev l, achain h prev l /\ In a (attptrs l).
Proof.
  intros FH E D. assert (H : In a (fptrs F ++ attptrs G)) by (apply (f_all _ _ _ FH); congruence).
  apply in_app_or in H as [H|H].
  2:{ apply in_flat_map in H as ([x ks] & Ha & H). pose proof (f_ga _ _ _ FH) as Ga. rewrite Forall_forall in Ga.
      exists None, [(x, ks)]. split; [exact (Ga _ Ha)|]. cbn [attptrs flat_map]. rewrite app_nil_r. exact H. }
  apply in_flat_map in H as (g & Hg & H). apply in_flat_map in H as (t & Ht & H).
  pose proof (f_lk _ _ _ FH) as L. rewrite Forall_forall in L.
  destruct (linkeds_in _ _ _ _ _ _ (L g Hg) Ht) as (pv & nx & Lt).
  destruct (ptrs_cases _ _ _ _ _ _ Lt H) as [X|(p & props & n' & ns & defs & l & cp & X1 & X2 & X3 & X4)]; [|eauto].
  pose proof (node_not_attr _ _ _ _ _ _ _ Lt X E) as Y. rewrite D in Y. discriminate.
Qed.
Lemma forest_plain h F G : forest h F G -> plain_values h.
Proof.
  intros FH p c V E.
  assert (Q : exists a prev ks, vchain h a prev ks /\ In p ks).
  { clear E c. induction V as [a c p E (nm & df & D) K|q c p V IH E N].
    - destruct (forest_attr_chain _ _ _ _ _ _ _ FH E D) as (prev & l & A & H).
      destruct (achain_value _ _ _ _ _ _ _ _ A H E D K) as (ks & X & Y). eauto.
    - destruct IH as (a & prev & ks & X & Y). exists a, prev, ks. split; [exact X|]. eapply vchain_next; eassumption. }
  destruct Q as (a & prev & ks & X & Y). destruct (vchain_in _ _ _ _ _ X Y) as (c' & s & Z & _ & _ & _ & D).
  rewrite Z in E. injection E as ->. rewrite D. exact I.
Qed.
Lemma reach_plain h : reach h -> plain_values h.
Proof. intro R. destruct (reach_forest _ R) as (F & G & FH). exact (forest_plain _ _ _ FH). Qed.

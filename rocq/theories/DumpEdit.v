(* Serialising parsed and edited documents: it always ends, and what is written
   is read back as the same tree. *)
From Coq Require Import FMapPositive Permutation.
From Verif Require Import Base Utf8 XmlSpec Escape Scan ScanProofs Parser LexProofs Heap Dump TreeBuilder TreeShape TreeOps Forest ForestOps ForestAdd History TreeCalls TreeRead
  TreeOwner Retire Xml XmlGrammar XmlDump XmlSpec Tidy XmlRound Edit DumpTotal.

(* a result, not a panic, which is an answer for a tree that has a syntax *)
Definition answered (b : Prop) (r : outcome herr str) : Prop := r <> Pan /\ r <> Oof /\ (b -> exists t, r = Ret t).
Lemma fine_answered b r : fine b r -> answered b r.
Proof.
  unfold answered. destruct r as [t|e| |]; cbn; intros H; try contradiction; do 2 (split; [discriminate|]); [eauto|].
  intros B. destruct (H B).
Qed.
Lemma doc_not_attr h d v e sa i x : sound h -> data_of h d = Some (DDoc v e sa i x) -> ~ in_attr h d.
Proof.
  intros (F & G & FH) D. apply data_of_some in D as (c & E & Dc).
  destruct (forest_live _ _ _ _ _ FH E) as [Hn|[[X _]|(a & ca & s & _ & _ & _ & X & _)]]; [eapply tree_not_attr; eassumption|rewrite Dc in X; discriminate..].
Qed.

Section DE.
Variable E : env.
Variable f : nat.
Hypothesis U : usual E.
Theorem edit_dump X h p l : edited E f X h -> live (drop X h) p -> ~ in_attr (drop X h) p -> preorder (drop X h) p l ->
  (forall x d, In x l -> data_of (drop X h) x = Some d -> bearable d) ->
  let syntax := forall x d, In x l -> data_of (drop X h) x = Some d -> has_syntax d in
  exists r r', answered syntax r /\ answered syntax r' /\
    forall n, (2 * size h <= n)%nat -> dumpNode h n p = r /\ dumpDoc h n p = r'.
Proof.
  intros L A NA P B syntax. pose proof (edit_sound _ (edited_start E f U) _ _ L) as Sd. destruct (since_forest _ (edited_start E f U) _ _ L) as [Ls _].
  assert (Sz : size (drop X h) = size h) by (symmetry; apply (less_size _ _ _ Ls)).
  assert (F : forall n, (2 * size h <= n)%nat -> fine syntax (dumpNode (drop X h) n p) /\ fine syntax (dumpDoc (drop X h) n p)).
  { intros n Hn. apply (dump_fine _ _ _ _ _ Sd A NA P); [|lia]. intros x d Hx D. split; [exact (B x d Hx D)|]. intros S. exact (S x d Hx D). }
  destruct (F (2 * size h)%nat (le_n _)) as [F1 F2]. apply fine_answered in F1, F2.
  exists (dumpNode (drop X h) (2 * size h) p), (dumpDoc (drop X h) (2 * size h) p). split; [exact F1|]. split; [exact F2|]. intros n Hn.
  destruct (F n Hn) as [G1 G2]. apply fine_answered in G1, G2. split.
  - rewrite (proj1 (dump_less _ _ _ Ls n) p (proj1 G1)). apply (dump_more (drop X h) _ n Hn). apply F1.
  - rewrite (doc_less _ _ _ n p Ls (proj1 G2)). apply (doc_more (drop X h) _ n p Hn). apply F2.
Qed.

Theorem edit_value X h d v e sa i x l : edited E f X h -> data_of (drop X h) d = Some (DDoc v e sa i x) -> preorder (drop X h) d (d :: l) ->
  Forall (ordinary (drop X h)) l -> single_values (drop X h) -> exists k, document_is (drop X h) d v e sa k /\ document_is h d v e sa k.
Proof.
  intros L D P O Sv. pose proof (edit_sound _ (edited_start E f U) _ _ L) as Sd. destruct (since_forest _ (edited_start E f U) _ _ L) as [Ls _].
  destruct (document_value _ _ _ _ _ _ _ _ Sd Sv D (doc_not_attr _ _ _ _ _ _ _ Sd D) P O) as (k & K).
  exists k. split; [exact K|]. eapply document_less; eassumption.
Qed.
End DE.

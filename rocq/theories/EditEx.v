(* The document of TreeSafeEx.v is parsed, a new element with text takes the
   place of p:c, and gets an attribute and a comment. *)
From Verif Require Import Base Utf8 Utf8Proofs XmlSpec Escape Scan ScanProofs Parser LexProofs Sample NoPanic Heap TreeBuilder TreeShape TreeOps Forest ForestOps ForestAttr
  History TreeCalls TreeRead TreeReplace TreeAttrs TreeOwner LooseEx TreeSafeParse TreeSafeEx TreeSafeDoctype TreeSafeDoctypeEx Retire TreeEx RetireEx Edit.
Local Open Scope positive_scope.

Definition E1 : env := env0 0 false.
Lemma E1_usual : usual E1.
Proof.
  refine (conj (env0_ok 0 false _) (conj (letters_legal 0 false) _)); [left; reflexivity|reflexivity].
Qed.
Definition first_heap : heap := Eval vm_compute in tb_heap (hs (snd (Parse E1 tb (treeH 700) 700 tb_init names_src))).
Lemma first_parsed : parsed_heap E1 700 first_heap.
Proof.
  exists names_src, 700%nat, (snd (Parse E1 tb (treeH 700) 700 tb_init names_src)).
  split; [exact (names_fitting 0 false)|]. split; [intros; apply names_percent|].
  split; vm_compute; reflexivity.
Qed.
Definition edits : list tcall :=
  [TOp (ONew (Some 1) (el (s_ "n"))); TOp (OContent 13 (s_ "in")); TReplace 7 13; TOp (OSet 13 (s_ "k") (s_ "v")); TOp (ONew None (DComment (s_ "c")));
   TOp (ONew None (el (s_ "m"))); TOp (ONew None (DText (s_ "t")))].
Definition after : list ptr * heap := Eval vm_compute in match runs edits [] first_heap with Some r => r | None => ([], empty_heap) end.
Lemma after_edited : edited E1 700 (fst after) (snd after).
Proof.
  eapply (runs_since _ (edited_start E1 700 E1_usual) edits [] first_heap); [vm_compute; reflexivity|].
  constructor. right. exact first_parsed.
Qed.
Definition now : heap := drop (fst after) (snd after).
Lemma now_sound : sound now.
Proof. exact (edit_sound _ (edited_start E1 700 E1_usual) _ _ after_edited). Qed.
Lemma now_kids p cs : match hget now p with Some c => negb (is_attr (dat c)) | None => false end = true ->
  pathb now (first_of now p) cs = true -> children now p cs.
Proof.
  intros A C. destruct (hget now p) as [c|] eqn:E; [|discriminate]. apply negb_true_iff in A.
  unfold first_of in C. rewrite E in C. destruct now_sound as (F & G & FH).
  eapply children_by_path; [exact (forest_consistent _ _ _ FH)|exact E|exact A|apply pathb_ok, C].
Qed.

(* a document with declarations: the root element loses its child and gets text *)
Definition typed_heap : heap := Eval vm_compute in tb_heap (hs (snd (Parse E1 tb (treeH 1500) 1500 tb_init typed_src))).
Lemma typed_parsed : parsed_heap E1 1500 typed_heap.
Proof.
  exists typed_src, 1500%nat, (snd (Parse E1 tb (treeH 1500) 1500 tb_init typed_src)).
  split; [intros c rest S; exact (proj1 (typed_by 0 false c rest S))|]. split; [intros; apply typed_percent|].
  split; vm_compute; reflexivity.
Qed.
Definition typed_edits : list tcall := [TOp (ONew (Some 1) (el (s_ "b"))); TReplace 16 20; TOp (OContent 20 (s_ "in")); TOp (OSet 13 (s_ "x") (s_ "w"))].
Definition retyped : list ptr * heap := Eval vm_compute in match runs typed_edits [] typed_heap with Some r => r | None => ([], empty_heap) end.
Lemma retyped_edited : edited E1 1500 (fst retyped) (snd retyped).
Proof.
  eapply (runs_since _ (edited_start E1 1500 E1_usual) typed_edits [] typed_heap); [vm_compute; reflexivity|].
  constructor. right. exact typed_parsed.
Qed.
Lemma retyped_kids p cs : match hget (drop (fst retyped) (snd retyped)) p with Some c => negb (is_attr (dat c)) | None => false end = true ->
  pathb (drop (fst retyped) (snd retyped)) (first_of (drop (fst retyped) (snd retyped)) p) cs = true -> children (drop (fst retyped) (snd retyped)) p cs.
Proof.
  intros A C. set (u := drop (fst retyped) (snd retyped)) in *. destruct (hget u p) as [c|] eqn:E; [|discriminate]. apply negb_true_iff in A.
  unfold first_of in C. rewrite E in C. destruct (edit_sound _ (edited_start E1 1500 E1_usual) _ _ retyped_edited : sound u) as (F & G & FH).
  eapply children_by_path; [exact (forest_consistent _ _ _ FH)|exact E|exact A|apply pathb_ok, C].
Qed.

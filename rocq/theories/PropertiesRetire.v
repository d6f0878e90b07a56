(* Final statements about histories that also replace nodes.  [life X h]: the
   heap h results from a history of calls that create, attach and replace nodes,
   add content, set attributes, owners and namespaces; X are the nodes taken out
   of use by Replace and SetDocumentElement, each with all that hangs below it.
   Only nodes in use are arguments of a call.  [drop X h] is h without X. *)
From Verif Require Import Base Utf8 Utf8Proofs XmlSpec Escape Scan Heap TreeShape TreeOps Forest ForestOps ForestAttr History TreeCalls TreeRead
  TreeReplace TreeAttrs TreeOwner Retire TreeEx RetireEx.
Local Open Scope positive_scope.

(* ---- C66: links stay consistent when nodes are replaced ---- *)
(* the links of the nodes in use: as in C31.  Missing: attributes (C31), and
   nodes that were replaced, refuted below. *)
Theorem C66_consistent_partial : forall X h, life X h -> consistent (drop X h).
Proof. exact life_consistent. Qed.
(* a call ends without panic, and leaves what is out of use as it is *)
Theorem C66_no_panic : forall X h c, life X h -> fit (drop X h) c ->
  exists r h' X', run c h = (r, h') /\ r <> Pan /\ r <> Oof /\ life X' h' /\ (forall x, In x X -> In x X' /\ hget h' x = hget h x).
Proof. exact life_total. Qed.
(* what is out of use makes no difference *)
Theorem C66_same : forall X h c r0 h0, life X h -> fit (drop X h) c -> run c (drop X h) = (r0, h0) ->
  exists h', run c h = (r0, h') /\ forall x, ~ In x X -> hget h' x = hget h0 x.
Proof. exact life_same. Qed.
(* the histories of C31 are among them *)
Theorem C66_covers : forall h, reach h -> life [] h.
Proof. exact reach_life. Qed.
(* A replaced node keeps its links.  Attached again under its old parent, it
   leads back to its old sibling: there is no list of children, and Content
   never ends. *)
Theorem C66_reuse_refuted : exists X h p x h', life X h /\ live (drop X h) p /\ In x X /\ live h x /\
  AddChild p x h = (Ret tt, h') /\ (forall cs, ~ children h' p cs) /\ forall n, fst (Content n p h') = Oof.
Proof.
  exists (fst (life_of calls1)), (snd (life_of calls1)), 2, 4, hc. split; [apply life_of_ok|].
  split; [apply liveb_ok; reflexivity|]. split; [vm_compute; auto|]. split; [apply liveb_ok; reflexivity|].
  split; [vm_compute; reflexivity|]. split; [exact hc_no_children|]. exact hc_content.
Qed.
Example C66_ex : life (fst (life_of calls2)) (snd (life_of calls2)) /\ fst (life_of calls1) = [4; 7; 8; 9; 10; 5] /\
  fst (life_of calls2) = [2; 3; 11; 15; 16; 13; 6; 4; 7; 8; 9; 10; 5] /\
  children (drop (fst (life_of calls1)) (snd (life_of calls1))) 2 [3; 11; 6] /\
  children (drop (fst (life_of calls2)) (snd (life_of calls2))) 1 [18] /\
  fit (drop (fst (life_of calls1)) (snd (life_of calls1))) (TReplace 6 14) /\
  fit (drop (fst (life_of calls2)) (snd (life_of calls2))) (TReplace 18 12).
Proof.
  refine (conj (life_of_ok _) _). split; [vm_compute; reflexivity|]. split; [vm_compute; reflexivity|].
  split; [apply life_kids; vm_compute; reflexivity|]. split; [apply life_kids; vm_compute; reflexivity|].
  destruct (life_forest _ _ (life_of_ok calls1)) as (_ & F & G & FH). destruct (life_forest _ _ (life_of_ok calls2)) as (_ & F' & G' & FH').
  split; eapply fitb_ok; try eassumption; vm_compute; reflexivity.
Qed.

(* ---- assumptions ---- *)
Print Assumptions C66_consistent_partial.
Print Assumptions C66_no_panic.
Print Assumptions C66_same.
Print Assumptions C66_covers.
Print Assumptions C66_reuse_refuted.

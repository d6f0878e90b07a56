(* C73: the result of parsing does not depend on the order in which the range
   statement visits a Go map.  The specification is at the top of Order.v. *)
From Coq Require Import Permutation.
From Verif Require Import Base Utf8 Encoding Scan Parser Heap TreeBuilder Sample Order.
Local Open Scope Z_scope.

(* For every two orders and every input: the same result, the same answers, and
   the same events but for the order of the defaulted attributes in a start tag,
   for every handler that does not act on that order.  The orders may differ
   from loop to loop. *)
Theorem C73_events_partial : forall E pi S (H : handler S), order (permute E) -> order pi -> indifferent H -> forall n h bytes o s o' s',
  Parse E S H n h bytes = (o, s) -> Parse (with_order pi E) S H n h bytes = (o', s') ->
  o = o' /\ hs s = hs s' /\ Forall2 (fun x y => alike (fst x) (fst y) /\ snd x = snd y) (tr s) (tr s').
Proof. exact order_free. Qed.
(* The tree is the same, cell by cell. *)
Theorem C73_tree : forall E pi, order (permute E) -> order pi -> forall n m bytes o s o' s',
  Parse E tb (treeH m) n tb_init bytes = (o, s) -> Parse (with_order pi E) tb (treeH m) n tb_init bytes = (o', s') -> o = o' /\ hs s = hs s'.
Proof. exact tree_order. Qed.

(* backwards after an even number of events *)
Definition backwards (k : nat) (l : list (str * str * str)) : list (str * str * str) := if Nat.even k then rev l else l.
Lemma backwards_order : order backwards.
Proof. intros k l. unfold backwards. destruct (Nat.even k); [symmetry; apply Permutation_rev|apply Permutation_refl]. Qed.
Definition two_defaults : str := s_ "<!DOCTYPE r [<!ATTLIST r x CDATA '1' y CDATA '2'>]><r/>".
Definition told (E : env) : outcome gerr unit * list event := let '(o, s) := Parse E unit plainH 200 tt two_defaults in (o, rev (map fst (tr s))).
Example C73_ex : order (permute (env0 0 false)) /\ order backwards /\ indifferent plainH /\
  told (env0 0 false) = (Ret tt, [ESetDocumentLocator; EStartDocument; EInternalSubset (s_ "r") [] [];
    EAttributeDecl (s_ "r") (s_ "x") AttrCDATA DefNone (s_ "1") []; EAttributeDecl (s_ "r") (s_ "y") AttrCDATA DefNone (s_ "2") [];
    EExternalSubset (s_ "r") [] []; EStartElement (s_ "r") [] [] [] [ADefault (s_ "x") [] (s_ "1"); ADefault (s_ "y") [] (s_ "2")];
    EEndElement (s_ "r") [] []; EEndDocument]) /\
  told (with_order backwards (env0 0 false)) = (Ret tt, [ESetDocumentLocator; EStartDocument; EInternalSubset (s_ "r") [] [];
    EAttributeDecl (s_ "r") (s_ "x") AttrCDATA DefNone (s_ "1") []; EAttributeDecl (s_ "r") (s_ "y") AttrCDATA DefNone (s_ "2") [];
    EExternalSubset (s_ "r") [] []; EStartElement (s_ "r") [] [] [] [ADefault (s_ "y") [] (s_ "2"); ADefault (s_ "x") [] (s_ "1")];
    EEndElement (s_ "r") [] []; EEndDocument]).
Proof.
  split; [intros k l; apply Permutation_refl|]. split; [exact backwards_order|]. split; [intros s v e e' _; reflexivity|].
  split; vm_compute; reflexivity.
Qed.
(* As stated it is false: the events of one document differ. *)
Theorem C73_events_refuted : exists E pi bytes n, order (permute E) /\ order pi /\
  fst (Parse E unit plainH n tt bytes) = Ret tt /\ fst (Parse (with_order pi E) unit plainH n tt bytes) = Ret tt /\
  map fst (tr (snd (Parse E unit plainH n tt bytes))) <> map fst (tr (snd (Parse (with_order pi E) unit plainH n tt bytes))).
Proof.
  exists (env0 0 false), backwards, two_defaults, 200%nat. split; [intros k l; apply Permutation_refl|]. split; [exact backwards_order|].
  split; [vm_compute; reflexivity|]. split; [vm_compute; reflexivity|]. vm_compute. discriminate.
Qed.
Definition tree_two (E : env) : outcome gerr unit * tb := let '(o, s) := Parse E tb (treeH 100) 200 tb_init two_defaults in (o, hs s).
Example C73_tree_ex : fst (tree_two (env0 0 false)) = Ret tt /\ tree_two (env0 0 false) = tree_two (with_order backwards (env0 0 false)) /\
  tb_doc (snd (tree_two (env0 0 false))) <> None.
Proof. split; [vm_compute; reflexivity|]. split; [vm_compute; reflexivity|]. vm_compute. discriminate. Qed.

(* ---- assumptions ---- *)
Print Assumptions C73_events_partial.
Print Assumptions C73_tree.
Print Assumptions C73_events_refuted.

(* Final statements about serialising documents that were parsed or built by
   calls, and possibly edited.  [edited E f X h] is in Edit.v; [drop X h] is h
   without the nodes X that were replaced; [bearable], [has_syntax], [ordinary]
   and [single_values] are in DumpTotal.v, [document_is] in Xml.v, [tidy_document]
   and [norms] in Tidy.v. *)
From Verif Require Import Base Utf8 Utf8Proofs XmlSpec Escape Scan Parser Grammar DocComplete Sample ParserEx Heap Dump TreeBuilder TreeShape TreeOps Forest
  History TreeCalls TreeRead Retire TreeEx RetireEx Xml XmlGrammar Tidy XmlFinal XmlEx Edit EditEx DumpTotal DumpEdit DumpEditEx DeclRight DumpDecl.
From Verif Require Import XmlSpec Grammar.
Local Open Scope positive_scope.

(* ---- C70: serialising always ends ---- *)
(* l is the subtree of p.  The result r of the serialiser does not depend on the
   fuel, is no panic, and is a text if there is a syntax for all nodes of the
   subtree.  Missing: nodes of attributes, nodes that were replaced.  The texts
   and content models that are not [bearable] make the serialiser panic, see
   below. *)
Theorem C70_node_partial : forall E f, usual E -> forall X h p l, edited E f X h ->
  live (drop X h) p -> ~ in_attr (drop X h) p -> preorder (drop X h) p l ->
  (forall x d, In x l -> data_of (drop X h) x = Some d -> bearable d) ->
  exists r, r <> Pan /\ r <> Oof /\ (forall n, (2 * size h <= n)%nat -> dumpNode h n p = r) /\
    ((forall x d, In x l -> data_of (drop X h) x = Some d -> has_syntax d) -> exists t, r = Ret t).
Proof.
  intros E f U X h p l L A NA P B. destruct (edit_dump E f U X h p l L A NA P B) as (r & r' & (R1 & R2 & R3) & _ & R). exists r.
  split; [exact R1|]. split; [exact R2|]. split; [intros n Hn; apply R, Hn|exact R3].
Qed.
(* the same for a document with its XML declaration *)
Theorem C70_document_partial : forall E f, usual E -> forall X h p l, edited E f X h ->
  live (drop X h) p -> ~ in_attr (drop X h) p -> preorder (drop X h) p l ->
  (forall x d, In x l -> data_of (drop X h) x = Some d -> bearable d) ->
  exists r, r <> Pan /\ r <> Oof /\ (forall n, (2 * size h <= n)%nat -> dumpDoc h n p = r) /\
    ((forall x d, In x l -> data_of (drop X h) x = Some d -> has_syntax d) -> exists t, r = Ret t).
Proof.
  intros E f U X h p l L A NA P B. destruct (edit_dump E f U X h p l L A NA P B) as (r & r' & _ & (R1 & R2 & R3) & R). exists r'.
  split; [exact R1|]. split; [exact R2|]. split; [intros n Hn; apply R, Hn|exact R3].
Qed.
(* Everything that is bearable can be written, but for attribute declarations
   of type ENTITIES, after parsing and any edits that create no declarations by
   themselves ([tended], DumpDecl.v). *)
Theorem C70_written_partial : forall E f, usual E -> forall X h p l, tended (fun h => h = empty_heap \/ parsed_heap E f h) X h ->
  live (drop X h) p -> ~ in_attr (drop X h) p -> preorder (drop X h) p l ->
  (forall x d, In x l -> data_of (drop X h) x = Some d -> bearable d /\ no_entities d) ->
  exists t t', forall n, (2 * size h <= n)%nat -> dumpNode h n p = Ret t /\ dumpDoc h n p = Ret t'.
Proof.
  intros E f U X h p l T A NA P B.
  destruct (edit_dump E f U X h p l (tended_since _ _ _ T) A NA P (fun x d Hx D => proj1 (B x d Hx D))) as (r & r' & (_ & _ & R1) & (_ & _ & R2) & R).
  assert (S : forall x d, In x l -> data_of (drop X h) x = Some d -> has_syntax d)
    by (intros x d Hx D; exact (tended_syntax E f U X h T x d D (proj2 (B x d Hx D)))).
  destruct (R1 S) as (t & ->), (R2 S) as (t' & ->). eauto.
Qed.
(* documents that are parsed and cannot be written: panic *)
Theorem C70_textnoenc_refuted : exists x, x = s_ "<r>textnoenc</r>" /\ fst (parsed x) = Ret tt /\ written x = Pan.
Proof. exists (s_ "<r>textnoenc</r>"). split; [reflexivity|]. split; vm_compute; reflexivity. Qed.
(* a group that begins with a group (a well-formed document) *)
Theorem C70_group_refuted : exists x, x = s_ "<!DOCTYPE r [<!ELEMENT r ((a),b)>]><r/>" /\ fst (parsed x) = Ret tt /\ written x = Pan.
Proof. eexists. split; [reflexivity|]. split; vm_compute; reflexivity. Qed.
(* mixed content that is cut off *)
Theorem C70_mixed_refuted : exists x, x = s_ "<!DOCTYPE r [<!ELEMENT r (#PCDATA|a>]><r/>" /\ fst (parsed x) = Ret tt /\ written x = Pan.
Proof. eexists. split; [reflexivity|]. split; vm_compute; reflexivity. Qed.
(* and one that gives an error *)
Theorem C70_entities_refuted : exists x e, x = s_ "<!DOCTYPE r [<!ATTLIST r a ENTITIES #IMPLIED>]><r/>" /\ fst (parsed x) = Ret tt /\ written x = Fail e.
Proof. do 2 eexists. split; [reflexivity|]. split; vm_compute; reflexivity. Qed.
(* the document with declarations of C67_doctype_ex after the edits *)
Example C70_ex : edited E1 1500 (fst retyped) (snd retyped) /\ live (drop (fst retyped) (snd retyped)) 1 /\ ~ in_attr (drop (fst retyped) (snd retyped)) 1 /\
  preorder (drop (fst retyped) (snd retyped)) 1 [1; 2; 3; 4; 7; 10; 11; 12; 13; 20; 21] /\
  forall x d, In x [1; 2; 3; 4; 7; 10; 11; 12; 13; 20; 21] -> data_of (drop (fst retyped) (snd retyped)) x = Some d -> bearable d /\ has_syntax d.
Proof.
  set (u := drop (fst retyped) (snd retyped)). split; [exact retyped_edited|]. split; [eexists; vm_compute; reflexivity|].
  split. { intros (c & Ec & Ha). vm_compute in Ec. injection Ec as <-. destruct Ha as [Ha|(q & d & Hp & _)]; discriminate. }
  split.
  - assert (Leaf : forall p, match hget u p with Some c => negb (is_attr (dat c)) | None => false end = true -> pathb u (first_of u p) [] = true -> preorder u p [p]).
    { intros p A B. change [p] with (p :: concat []). apply (pre_node u p []); [apply retyped_kids; assumption|constructor]. }
    change [1; 2; 3; 4; 7; 10; 11; 12; 13; 20; 21] with (1 :: concat [2 :: concat [[3]; [4]; [7]; [10]; [11]]; [12]; 13 :: concat [20 :: concat [[21]]]]).
    apply (pre_node u 1 [2; 12; 13]); [apply retyped_kids; vm_compute; reflexivity|].
    constructor; [|constructor; [apply Leaf; vm_compute; reflexivity|constructor; [|constructor]]].
    + apply (pre_node u 2 [3; 4; 7; 10; 11]); [apply retyped_kids; vm_compute; reflexivity|]. repeat (constructor; [apply Leaf; vm_compute; reflexivity|]). constructor.
    + apply (pre_node u 13 [20]); [apply retyped_kids; vm_compute; reflexivity|]. constructor; [|constructor].
      apply (pre_node u 20 [21]); [apply retyped_kids; vm_compute; reflexivity|]. constructor; [apply Leaf; vm_compute; reflexivity|constructor].
  - intros x d Hx Hd. repeat (destruct Hx as [<-|Hx]; [vm_compute in Hd; injection Hd as <-; cbn; intuition (try discriminate; try lia)|]). destruct Hx.
Qed.

Example C70_written_ex : tended (fun h => h = empty_heap \/ parsed_heap E1 1500 h) (fst retyped) (snd retyped) /\
  forall x d, In x [1; 2; 3; 4; 7; 10; 11; 12; 13; 20; 21] -> data_of (drop (fst retyped) (snd retyped)) x = Some d -> bearable d /\ no_entities d.
Proof.
  split; [exact retyped_tended|].
  intros x d Hx Hd. repeat (destruct Hx as [<-|Hx]; [vm_compute in Hd; injection Hd as <-; cbn; intuition (try discriminate; try lia)|]). destruct Hx.
Qed.

(* ---- C71: edited documents survive writing and reading ---- *)
(* Every document of ordinary nodes is a document k of Xml.v, and if names and
   characters of k are legal, what is written is read back as the same document.
   Missing: documents with declarations or processing instructions, attributes
   whose value is more than one text, and what C46 leaves out. *)
Theorem C71_round_trip_partial : forall E f, usual E -> forall X h d v e sa i x l, edited E f X h ->
  data_of (drop X h) d = Some (DDoc v e (sa_code sa) i x) -> preorder (drop X h) d (d :: l) ->
  Forall (ordinary (drop X h)) l -> single_values (drop X h) ->
  (v = [] \/ version_num v) -> (e = [] \/ (enc_name e /\ utf8_name e)) ->
  exists k, document_is (drop X h) d v e (sa_code sa) k /\
    (tidy_document E k -> writables k ->
     exists t, (forall n, (2 * xsizes k + 1 < n)%nat -> dumpDoc h n d = Ret t) /\
     exists m0, forall n m, (List.length t < n)%nat -> (m0 <= m)%nat ->
     exists s' p, Parse E tb (treeH m) n tb_init t = (Ret tt, s') /\ tb_doc (hs s') = Some p /\
       document_is (tb_heap (hs s')) p (version_of v) e (sa_code sa) (norms k)).
Proof.
  intros E f U X h d v e sa i x l L D P O Sv V En. destruct (edit_value E f U X h d v e (sa_code sa) i x l L D P O Sv) as (k & K1 & K2).
  exists k. split; [exact K1|]. intros T W. destruct (round_trip E (proj1 U) h d v e sa k K2 T W V En) as (t & R & _ & m0 & Q).
  exists t. split; [exact R|]. exists m0. intros n m Hn Hm. destruct (Q n m Hn Hm) as (s' & p & Q1 & Q2 & _ & Q3). exists s', p. auto.
Qed.
(* <r x='1'>a<b/>d</r> with <b/> replaced by an element with text, and an
   attribute more *)
Example C71_ex : usual E1 /\ edited E1 700 (fst short_after) (snd short_after) /\ fst short_after = [7] /\
  preorder short_now 1 [1; 2; 3; 6; 9; 10; 8] /\ Forall (ordinary short_now) [2; 3; 6; 9; 10; 8] /\ single_values short_now /\
  document_is short_now 1 (s_ "1.0") [] (sa_code None) short_tree /\ tidy_document E1 short_tree /\ writables short_tree /\
  dumpDoc (snd short_after) 60 1 = Ret (s_ "<?xml version=""1.0""?>" ++ [10%Z] ++ s_ "<!--c-->" ++ [10%Z] ++ s_ "<r x=""1"" k=""w"">a<n>z&lt;</n>d</r>" ++ [10%Z]).
Proof.
  refine (conj E1_usual (conj short_edited (conj eq_refl (conj short_order (conj short_ordinary (conj short_single (conj short_is (conj short_tidy _)))))))).
  split; [repeat split; discriminate|vm_compute; reflexivity].
Qed.

(* ---- C72: the declarations that are reported are of the kinds there are ---- *)
(* [right_event] is in DeclRight.v.  For every handler and every input, accepted
   or not.  Missing from the property: the three refutations below. *)
Theorem C72_declarations_partial : forall E S (H : handler S) n h bytes e r,
  In (e, r) (tr (snd (Parse E S H n h bytes))) -> right_event e.
Proof. exact declarations_right. Qed.
(* no content specification: reported with the type "undefined" *)
Theorem C72_undefined_refuted : exists bytes s, bytes = s_ "<!DOCTYPE r [<!ELEMENT r >]><r/>" /\
  Parse (env0 0 false) unit plainH 400 tt bytes = (Ret tt, s) /\ In (EElementDecl (s_ "r") UndefinedElementType None, HNil) (tr s).
Proof. do 2 eexists. split; [reflexivity|]. split; [vm_compute; reflexivity|]. cbn. auto 12. Qed.
(* element content, and no model *)
Theorem C72_model_refuted : exists bytes s, bytes = s_ "<!DOCTYPE r [<!ELEMENT r ((a))>]><r/>" /\
  Parse (env0 0 false) unit plainH 400 tt bytes = (Ret tt, s) /\ In (EElementDecl (s_ "r") ElementElementType None, HNil) (tr s).
Proof. do 2 eexists. split; [reflexivity|]. split; [vm_compute; reflexivity|]. cbn. auto 12. Qed.
(* a sequence of which a part is missing *)
Theorem C72_part_refuted : exists bytes s m, bytes = s_ "<!DOCTYPE r [<!ELEMENT r ((a),b)>]><r/>" /\
  Parse (env0 0 false) unit plainH 400 tt bytes = (Ret tt, s) /\ In (EElementDecl (s_ "r") ElementElementType (Some m), HNil) (tr s) /\ ~ complete m.
Proof.
  do 3 eexists. split; [reflexivity|]. split; [vm_compute; reflexivity|]. split; [cbn; auto 12|]. cbn. intros [[H _] _]. apply H. reflexivity.
Qed.
Example C72_ex : exists e r, In (e, r) (tr (snd (Parse (env0 0 false) unit plainH 600 tt
  (s_ "<!DOCTYPE r [<!ELEMENT r (a|b)><!ATTLIST r x NMTOKENS 'u v'><!ENTITY e 'f'>]><r/>")))) /\
  match e with EAttributeDecl _ _ t d _ _ => t = AttrNmtokens /\ d = DefNone | _ => False end.
Proof. exists (EAttributeDecl (s_ "r") (s_ "x") AttrNmtokens DefNone (s_ "u v") []), HNil. split; [vm_compute; auto 12|split; reflexivity]. Qed.

(* ---- assumptions ---- *)
Print Assumptions C70_node_partial.
Print Assumptions C70_document_partial.
Print Assumptions C70_written_partial.
Print Assumptions C70_textnoenc_refuted.
Print Assumptions C70_group_refuted.
Print Assumptions C70_mixed_refuted.
Print Assumptions C70_entities_refuted.
Print Assumptions C71_round_trip_partial.
Print Assumptions C72_declarations_partial.
Print Assumptions C72_undefined_refuted.
Print Assumptions C72_model_refuted.
Print Assumptions C72_part_refuted.

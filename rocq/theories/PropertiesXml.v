(* C23, C27, C30, C45, C46, C47, C48, C52: reading documents into trees and
   writing trees as documents. *)
From Coq Require Import FMapPositive.
From Verif Require Import Base Utf8 Utf8Proofs Escape XmlSpec Scan Parser Grammar DocComplete Sample ParserEx Heap Dump TreeBuilder TreeShape Forest
  Xml XmlDump Mirror XmlBuild XmlTree XmlParse Tidy XmlRound Nested NestedProofs XmlFinal XmlGrammar XmlRefuse XmlEx.
From Verif Require Import XmlSpec Grammar.
Local Open Scope Z_scope.

(* ---- C30: the tree mirrors the events ---- *)
(* [feed]: the callbacks one after the other, each answering nil.  [mirrors evs
   xs] (Mirror.v): the events, well nested, stand for the nodes xs: one element
   per start event with its attributes, one text per maximal run of character
   events, comments and instructions.  [document_is] (Xml.v): these are the
   children of the document, followed through FirstChild, NextSibling and the
   attribute chain.  [wf]: all links are consistent (C31).  [short]: enough
   fuel for the attribute values.  Missing: CDATA events (dropped, see C27),
   references, and the events of a document type declaration. *)
Theorem C30_builds_partial : forall n v evs xs, v_inSubset v <> 1 /\ v_inSubset v <> 2 -> mirrors evs xs -> no_text xs -> short n evs ->
  exists s d, feed n v tb_init (EStartDocument :: evs ++ [EEndDocument]) = Some s /\ tb_doc s = Some d /\ tb_elem s = None /\
    wf (tb_heap s) /\ document_is (tb_heap s) d (v_version v) (v_encoding v) (v_standalone v) xs.
Proof. exact build_document. Qed.
(* from the text of any document of the grammar *)
Theorem C30_parse_partial : forall E src i evs d xs, env_ok E -> document E src i evs d -> declared_once evs d ->
  mirrors evs xs -> no_text xs ->
  forall bom n m, bom_ok bom -> (List.length src < n)%nat -> (evs_len evs < m)%nat ->
  exists s' p, Parse E tb (treeH m) n tb_init (bom ++ utf8 src) = (Ret tt, s') /\ tb_doc (hs s') = Some p /\
    wf (tb_heap (hs s')) /\
    document_is (tb_heap (hs s')) p (di_version i) (match di_encoding i with Some e => e | None => [] end) (sa_code (di_standalone i)) xs.
Proof. exact parse_document. Qed.
(* every document of the grammar stands for a tree, unless it repeats an
   attribute (C23) or has CDATA sections *)
Theorem C30_every_document : forall E src i evs d, document E src i evs d -> distinct_atts evs -> no_cdata evs ->
  exists xs, mirrors evs xs /\ no_text xs.
Proof. exact document_mirror. Qed.
Example C30_ex : mirrors ex_events
    [XComment (s_ "c"); XElem (s_ "a") None [] [(s_ "x", s_ "1")] [XText (s_ "hi"); XElem (s_ "b") (Some (s_ "p", s_ "u")) [(s_ "p", s_ "u")] [] []; XText (s_ "<")]] /\
  document (env0 0 false) ex_src {| di_version := s_ "1.0"; di_encoding := Some (s_ "utf-8"); di_standalone := None |} ex_events [(s_ "p", s_ "u")] /\
  declared_once ex_events [(s_ "p", s_ "u")] /\ distinct_atts ex_events /\ no_cdata ex_events.
Proof.
  split; [|split; [apply ex_document|split; [apply ex_once|split]]].
  - apply mi_comment.
    refine (mi_elem (s_ "a") [] [] [] _ [(s_ "x", s_ "1")] [_; _; _; _] _ _ _ _ [] [] _ _ _ (mi_nil)).
    + apply (ma_attr (s_ "x") [] (s_ "1")); [repeat constructor|constructor].
    + repeat constructor; intros [].
    + refine (mi_text [ECharacters (s_ "hi")] [s_ "hi"] _ _ _ _ _ _); [discriminate|repeat constructor| |].
      { intros (e & t & r & X & [Y|Y]); injection X as <- _; discriminate. }
      refine (mi_elem (s_ "b") (s_ "p") (s_ "u") [(s_ "p", s_ "u")] [] [] [] [] _ _ _ _ _ ma_nil (NoDup_nil _) mi_nil _).
      refine (mi_text [ECharacters (s_ "<")] [s_ "<"] [] [] _ _ _ mi_nil); [discriminate|repeat constructor|].
      intros (e & t & r & X & _). discriminate.
  - intros l p u ns a X. repeat (destruct X as [X|X]; [try discriminate X; injection X as _ _ _ _ <-; cbn; repeat constructor; intros []|]). destruct X.
  - intros s X. repeat (destruct X as [X|X]; [discriminate|]). destruct X.
Qed.

(* ---- C23 in the tree: repeated attributes ---- *)
(* whatever was built before, a start event that repeats a name is refused *)
Theorem C23_tree_step : forall n s v l pf u ns atts atts', wf (tb_heap s) -> mirrors_atts atts atts' -> ~ NoDup (map fst atts') ->
  (forall a b w, In (AAttr a b w) atts -> (List.length w < n)%nat) ->
  exists h', tb_event n s v (EStartElement l pf u (map Some ns) atts) =
    ({| tb_heap := h'; tb_doc := tb_doc s; tb_elem := tb_elem s |}, HError 1).
Proof. exact repeated_refused. Qed.
(* so no document of the grammar that repeats an attribute, wherever, parses
   into a tree.  Missing: documents with CDATA sections. *)
Theorem C23_tree_refused_partial : forall E src i evs d, env_ok E -> document E src i evs d -> declared_once evs d ->
  ~ distinct_atts evs -> no_cdata evs ->
  forall bom n m, bom_ok bom -> (List.length src < n)%nat -> (evs_len evs < m)%nat ->
  fst (Parse E tb (treeH m) n tb_init (bom ++ utf8 src)) <> Ret tt.
Proof. exact repeated_document. Qed.
Example C23_tree_ex : document (env0 0 false) twice {| di_version := []; di_encoding := None; di_standalone := None |} twice_events [] /\
  declared_once twice_events [] /\ ~ distinct_atts twice_events /\ no_cdata twice_events /\ fst (parsed twice) = Fail (PErr (HErr 1)).
Proof.
  split; [apply twice_document|]. split; [split; [constructor|intros []]|]. split.
  - intros D. specialize (D _ _ _ _ _ (or_introl eq_refl)). cbn in D. inversion D as [|? ? X _]; subst. apply X. right. left. reflexivity.
  - split; [|vm_compute; reflexivity]. intros s X. repeat (destruct X as [X|X]; [discriminate|]). destruct X.
Qed.

(* ---- C27 in the tree ---- *)
(* the text of a CDATA section is missing from the tree *)
Theorem C27_tree_refuted : exists x, x = s_ "<r>a<![CDATA[b]]></r>" /\
  (forall eof, eof_ok eof -> In (ECDataBlock (s_ "b")) (body eof x)) /\
  fst (parsed x) = Ret tt /\ tree_of x = Some ([], [], -2, [XElem (s_ "r") None [] [] [XText (s_ "a")]]).
Proof.
  exists (s_ "<r>a<![CDATA[b]]></r>"). split; [reflexivity|]. split; [|split; vm_compute; reflexivity].
  intros eof [->| ->]; vm_compute; auto.
Qed.

(* ---- C45: balanced tags ---- *)
(* [nested] and [plain] are in Nested.v.  Missing: [writable], i.e. no text
   "textnoenc". *)
Theorem C45_balanced_partial : forall h p x, node_is h p x -> writable x -> plain x ->
  exists t, nested t /\ forall n, (2 * xsize x <= n)%nat -> dumpNode h n p = Ret t.
Proof. intros h p x N W P. exists (node_text x). split; [apply nested_text, P|]. exact (proj1 (dump_texts h) p x N W). Qed.
Theorem C45_textnoenc_refuted : exists x p, x = s_ "<r>textnoenc</r>" /\ fst (parsed x) = Ret tt /\
  node_is (heap_of x) p (XElem (s_ "r") None [] [] [XText (s_ "textnoenc")]) /\
  plain (XElem (s_ "r") None [] [] [XText (s_ "textnoenc")]) /\ dumpNode (heap_of x) 60 p = Pan.
Proof.
  exists (s_ "<r>textnoenc</r>"), 2%positive. split; [reflexivity|]. split; [vm_compute; reflexivity|]. split.
  - assert (R : read_nodes 60 (heap_of (s_ "<r>textnoenc</r>")) (Some 2%positive) = Some [XElem (s_ "r") None [] [] [XText (s_ "textnoenc")]]) by (vm_compute; reflexivity).
    apply read_nodes_ok in R. inversion R; subst. assumption.
  - split; [|vm_compute; reflexivity]. split; [split; [discriminate|repeat constructor]|]. refine (conj I (conj _ (conj _ (conj _ I)))); [constructor|constructor|].
    cbn [plain]. apply Forall_forall. intros c Hc. apply (proj1 (Forall_forall (fun c => is_byte c) (s_ "textnoenc"))); [|exact Hc].
    repeat (apply Forall_cons; [vm_compute; split; congruence|]). constructor.
Qed.
Example C45_ex : nodes_at (heap_of doc_text) (Some 2%positive) doc_tree /\ Forall writable doc_tree /\ Forall plain doc_tree.
Proof.
  split; [apply (read_nodes_ok _ 60); vm_compute; reflexivity|]. split.
  - unfold doc_tree. repeat (apply Forall_cons || apply Forall_nil); cbn [writable fold_right]; repeat split; discriminate.
  - assert (B : forall s, forallb (fun c => (0 <=? c) && (c <? 256)) s = true -> bytes_ok s).
    { intros s Hs. apply Forall_forall. rewrite forallb_forall in Hs. intros c Hc. apply Hs in Hc. unfold is_byte. lia. }
    assert (N : forall s, forallb (fun c => negb (delimiter c)) s = true -> s <> [] -> tag_name s).
    { intros s Hs Ns. split; [exact Ns|]. apply Forall_forall. rewrite forallb_forall in Hs. intros c Hc. apply Hs in Hc. apply negb_true_iff, Hc. }
    assert (C : forall c x y, [c] <> x ++ s_ "--" ++ y) by (intros c x y X; apply (f_equal (@List.length Z)) in X; rewrite !app_length in X; cbn in X; lia).
    unfold doc_tree. repeat (apply Forall_cons || apply Forall_nil); cbn [plain fold_right]; try apply C.
    repeat match goal with
           | |- _ /\ _ => split
           | |- True => exact I
           | |- Forall _ _ => constructor
           | |- tag_name _ => apply N; [reflexivity|discriminate]
           | |- bytes_ok _ => apply B; reflexivity
           | |- _ \/ _ => right
           | |- plain_def _ => unfold plain_def; cbn [fst snd]
           | |- ~ _ => vm_compute; intuition discriminate
           end.
Qed.

(* ---- C46: reading back what was written ---- *)
(* [tidy_document E l] (Tidy.v): elements, attributes, texts and comments with
   legal names and characters, namespaces as declared; [norms]: adjacent texts
   merged, empty ones dropped; [lines] is the text of the nodes one per line.
   Missing: texts that are "textnoenc", default namespaces followed by
   attributes, prefixes declared twice (C24), comments with CR LF. *)
Theorem C46_round_trip_partial : forall E, env_ok E -> forall h d v e sa l,
  document_is h d v e (sa_code sa) l -> tidy_document E l -> writables l ->
  (v = [] \/ version_num v) -> (e = [] \/ (enc_name e /\ utf8_name e)) ->
  exists t, (forall k, (2 * xsizes l + 1 < k)%nat -> dumpDoc h k d = Ret t) /\ t = dumpDocContent v e (sa_code sa) ++ lines l /\
  exists m0, forall n m, (List.length t < n)%nat -> (m0 <= m)%nat ->
  exists s' p, Parse E tb (treeH m) n tb_init t = (Ret tt, s') /\ tb_doc (hs s') = Some p /\ wf (tb_heap (hs s')) /\
    document_is (tb_heap (hs s')) p (version_of v) e (sa_code sa) (norms l).
Proof. exact round_trip. Qed.
(* a document of one element and one text, both legal, cannot be written *)
Theorem C46_textnoenc_refuted : exists x l, x = s_ "<r>textnoenc</r>" /\ fst (parsed x) = Ret tt /\
  document_is (heap_of x) 1%positive [] [] (sa_code None) l /\ tidy_document (env0 0 false) l /\ written x = Pan.
Proof.
  exists (s_ "<r>textnoenc</r>"), [XElem (s_ "r") None [] [] [XText (s_ "textnoenc")]].
  split; [reflexivity|]. split; [vm_compute; reflexivity|]. split; [apply (read_doc_ok _ 60); vm_compute; reflexivity|].
  split; [|vm_compute; reflexivity]. split.
  - apply tds_node; [|constructor]. apply (td_elem _ [] [] (s_ "r") [] []);
      [split; [left; reflexivity|nc]|constructor|constructor|constructor|apply resolves_none; reflexivity|].
    apply tds_node; [apply (td_text _ _ (s_ "textnoenc")); lit|constructor].
  - exists [], (s_ "r"), None, [], [], [XText (s_ "textnoenc")], []. split; [reflexivity|]. repeat split; try constructor. intros [].
Qed.
Example C46_ex : document_is (heap_of doc_text) 1%positive (s_ "1.0") (s_ "utf-8") (sa_code (Some true)) doc_tree /\
  tidy_document (env0 0 false) doc_tree /\ writables doc_tree /\ version_num (s_ "1.0") /\ enc_name (s_ "utf-8") /\ utf8_name (s_ "utf-8") /\
  norms [XElem (s_ "r") None [] [] [XText (s_ "a"); XText []; XText (s_ "b")]] = [XElem (s_ "r") None [] [] [XText (s_ "ab")]].
Proof.
  split; [exact doc_is|]. split; [apply doc_tidy|]. split; [repeat split; discriminate|].
  split; [exists 49, 48, []; repeat split; constructor|]. split; [exists 117, (s_ "tf-8"); repeat split; lit|].
  split; [left; reflexivity|reflexivity].
Qed.

(* ---- C47: writing again gives the same bytes ---- *)
Theorem C47_stable_partial : forall E, env_ok E -> forall h d v e sa l,
  document_is h d v e (sa_code sa) l -> tidy_document E l -> writables l ->
  no_hollows l -> writables (norms l) ->
  (v = [] \/ version_num v) -> (e = [] \/ (enc_name e /\ utf8_name e)) ->
  exists t, (forall k, (2 * xsizes l + 1 < k)%nat -> dumpDoc h k d = Ret t) /\
  exists m0, forall n m, (List.length t < n)%nat -> (m0 <= m)%nat ->
  exists s' p, Parse E tb (treeH m) n tb_init t = (Ret tt, s') /\ tb_doc (hs s') = Some p /\
    forall k, (2 * xsizes (norms l) + 1 < k)%nat -> dumpDoc (tb_heap (hs s')) k p = Ret t.
Proof. exact stable. Qed.
(* an element whose only child is an empty text is written <r></r> and after
   reading <r/> *)
Definition hollow : heap :=
  let h0 := empty_heap in
  let d := NewDocument [] [] (-2) h0 in
  let e := CreateElement None (s_ "r") (snd d) in
  let t := AddContent 2%positive [] (snd e) in
  snd (AddChild 1%positive 2%positive (snd t)).
Theorem C47_empty_text_refuted :
  document_is hollow 1%positive [] [] (sa_code None) [XElem (s_ "r") None [] [] [XText []]] /\
  exists t t', dumpDoc hollow 60 1%positive = Ret t /\ fst (parsed t) = Ret tt /\ written t = Ret t' /\ t' <> t.
Proof.
  split; [apply (read_doc_ok _ 60); vm_compute; reflexivity|]. do 2 eexists. split; [vm_compute; reflexivity|].
  split; [vm_compute; reflexivity|]. split; [vm_compute; reflexivity|discriminate].
Qed.
Example C47_ex : no_hollows doc_tree /\ writables (norms doc_tree) /\ written doc_text <> Oof /\
  exists t, written doc_text = Ret t /\ written t = Ret t.
Proof.
  split; [repeat split; discriminate|]. split; [repeat split; discriminate|]. split; [vm_compute; discriminate|].
  eexists. split; [vm_compute; reflexivity|]. vm_compute. reflexivity.
Qed.

(* ---- C48: each kind of node in its own syntax ---- *)
(* texts, comments and elements with their attributes: what is written for a
   node is content of the grammar and stands for that node (merged texts) *)
Theorem C48_node_partial : forall E ns x, tidy E ns x -> Forall (fun d => snd d <> []) ns ->
  exists src evs, utf8 src = node_text x /\ content E ns src evs (defs_of x) /\ mirrors evs (norms [x]).
Proof.
  intros E ns x T S. destruct (proj1 (round_all E) ns x T S) as [K _].
  destruct (K [] [] [] [] (c_nil E ns) mi_nil) as (src & evs & Es & C & M & _).
  { split; [discriminate|]. split; intros y; discriminate. }
  exists src, evs. rewrite app_nil_r in C. rewrite app_nil_r in C. auto.
Qed.
(* a processing instruction is written <></>, which is refused *)
Theorem C48_pi_refuted : exists x t, x = s_ "<?t d?><r/>" /\ fst (parsed x) = Ret tt /\
  tree_of x = Some ([], [], -2, [XPI (s_ "t") (s_ "d"); XElem (s_ "r") None [] [] []]) /\
  written x = Ret t /\ contains (s_ "<></>") t /\ fst (parsed t) <> Ret tt.
Proof.
  eexists. exists (s_ "<?xml version=""1.0""?>" ++ [10] ++ s_ "<></>" ++ [10] ++ s_ "<r/>" ++ [10]). split; [reflexivity|]. split; [vm_compute; reflexivity|].
  split; [vm_compute; reflexivity|]. split; [vm_compute; reflexivity|]. split; [|vm_compute; discriminate].
  exists (s_ "<?xml version=""1.0""?>" ++ [10]), ([10] ++ s_ "<r/>" ++ [10]). reflexivity.
Qed.
(* an attribute of the declared type ENTITIES cannot be written *)
Theorem C48_entities_refuted : exists x e, x = s_ "<!DOCTYPE r [<!ATTLIST r a ENTITIES #IMPLIED>]><r/>" /\ fst (parsed x) = Ret tt /\ written x = Fail e.
Proof. do 2 eexists. split; [reflexivity|]. split; vm_compute; reflexivity. Qed.
(* an external entity with a system identifier only is written as PUBLIC with an
   empty public identifier, one with both loses the public identifier; external
   parameter entities are written without the closing > *)
Theorem C48_external_entity_refuted :
  dumpEntityDecl (s_ "e") 2 [] (s_ "s") [] [] = Ret (s_ "<!ENTITY e PUBLIC """" ""s"">" ++ [10]) /\
  dumpEntityDecl (s_ "e") 2 (s_ "p") (s_ "s") [] [] = Ret (s_ "<!ENTITY e SYSTEM ""s"">" ++ [10]) /\
  dumpEntityDecl (s_ "e") 5 (s_ "p") (s_ "s") [] [] = Ret (s_ "<!ENTITY % e PUBLIC ""p"" ""s""").
Proof. repeat split. Qed.
(* the identifiers of a DOCTYPE are written without quotes, the system
   identifier not at all when there is a public one, and what is written is
   refused *)
Theorem C48_doctype_refuted :
  dumpDTDHead (s_ "r") (s_ "p") (s_ "s") = s_ "<!DOCTYPE r  PUBLIC p " /\
  fst (parsed (s_ "<!DOCTYPE r  PUBLIC p ><r/>")) <> Ret tt.
Proof. split; [reflexivity|vm_compute; discriminate]. Qed.
(* a comment inside the internal subset is a child of the document and written
   after the DOCTYPE *)
Theorem C48_subset_comment_refuted : exists x t, x = s_ "<!DOCTYPE r [<!--x-->]><r/>" /\ fst (parsed x) = Ret tt /\ written x = Ret t /\
  t = s_ "<?xml version=""1.0""?>" ++ [10] ++ s_ "<!DOCTYPE r >" ++ [10] ++ s_ "<!--x-->" ++ [10] ++ s_ "<r/>" ++ [10].
Proof. do 2 eexists. split; [reflexivity|]. split; [vm_compute; reflexivity|]. split; [vm_compute; reflexivity|reflexivity]. Qed.
Example C48_ex : tidies (env0 0 false) [] doc_tree.
Proof. apply doc_tidy. Qed.

(* ---- C52: the header ---- *)
(* [pseudo] (Grammar.v): name, equals sign, quoted value *)
Theorem C52_header : forall v e s, exists sv se ss,
  dumpDocContent v e s = s_ "<?xml" ++ sv ++ se ++ ss ++ s_ "?>" ++ [10] /\
  pseudo "version" (match v with [] => s_ "1.0" | _ => v end) sv /\
  (e = [] -> se = []) /\ (e <> [] -> pseudo "encoding" e se) /\
  (s = StandaloneExplicitYes -> pseudo "standalone" (s_ "yes") ss) /\
  (s = StandaloneExplicitNo -> pseudo "standalone" (s_ "no") ss) /\
  (s <> StandaloneExplicitYes -> s <> StandaloneExplicitNo -> ss = []).
Proof. exact header_text. Qed.
(* and it is the XML declaration that says so *)
Theorem C52_header_reads_back : forall v e sa, v = [] \/ version_num v -> e = [] \/ enc_name e ->
  exists hd, dumpDocContent v e (sa_code sa) = hd ++ [10] /\
    xml_decl hd (match v with [] => s_ "1.0" | _ => v end) (match e with [] => None | _ => Some e end) sa.
Proof. exact header_decl. Qed.
Example C52_ex : dumpDocContent (s_ "1.1") (s_ "utf-8") (sa_code (Some false)) = s_ "<?xml version=""1.1"" encoding=""utf-8"" standalone=""no""?>" ++ [10] /\
  dumpDocContent [] [] (sa_code None) = s_ "<?xml version=""1.0""?>" ++ [10].
Proof. split; reflexivity. Qed.

(* ---- assumptions ---- *)
Print Assumptions C30_builds_partial.
Print Assumptions C30_parse_partial.
Print Assumptions C30_every_document.
Print Assumptions C23_tree_step.
Print Assumptions C23_tree_refused_partial.
Print Assumptions C27_tree_refuted.
Print Assumptions C45_balanced_partial.
Print Assumptions C45_textnoenc_refuted.
Print Assumptions C46_round_trip_partial.
Print Assumptions C46_textnoenc_refuted.
Print Assumptions C47_stable_partial.
Print Assumptions C47_empty_text_refuted.
Print Assumptions C48_node_partial.
Print Assumptions C48_pi_refuted.
Print Assumptions C48_entities_refuted.
Print Assumptions C48_external_entity_refuted.
Print Assumptions C48_doctype_refuted.
Print Assumptions C48_subset_comment_refuted.
Print Assumptions C52_header.
Print Assumptions C52_header_reads_back.

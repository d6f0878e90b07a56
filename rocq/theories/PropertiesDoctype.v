(* Properties of documents with declarations: C56 to C62.  The grammar and what
   it means are in Doctype.v; a handler that accepts everything and remembers
   the entities is one that satisfies [remembers]. *)
From Coq Require Import Permutation.
From Verif Require Import Heap Dump TreeBuilder TreeShape Xml Mirror XmlBuild XmlParse Tidy XmlDump XmlFinal.
From Verif Require Import Base Utf8 Encoding Scan ScanProofs Parser XmlSpec TextProofs DocComplete Legal Sample Counter ParserEx XmlEx
  Content Doctype DoctypeDoc DoctypeCases DoctypeNodes DoctypeTree DoctypeEx.
From Verif Require DoctypeKept DoctypeRound.
From Verif Require Import Grammar.
Local Open Scope Z_scope.

(* ---- C56: the declarations of the internal subset are reported as written ---- *)
(* Every document of the grammar is accepted and its events are the ones of the
   grammar, in order: the declarations with names, types, defaults and values,
   then the content under these declarations.  Missing: external identifiers,
   enumerated types, notations and references to parameter entities, which the
   parser refuses, hangs on or does not expand. *)
Theorem C56_reported_partial : forall E, env_ok E -> forall S (H : handler S) known, remembers H known ->
  forall src i ds evs d, ddocument E src i ds evs d -> declared_once evs d ->
  exists N, forall bom n h, bom_ok bom -> (N <= n)%nat -> (forall m, In m (map fst (entities ds)) -> known h (utf8 m) = None) ->
  exists evs' s', Forall2 same evs evs' /\ Parse E S H n h (bom ++ utf8 src) = (Ret tt, s') /\
    rev (map fst (tr s')) = ESetDocumentLocator :: EStartDocument :: evs' ++ [EEndDocument].
Proof. exact ddocument_events. Qed.
Example C56_example : forall eof pct, eof_ok eof ->
  env_ok (env0 eof pct) /\ remembers storeH stored /\
  ddocument (env0 eof pct) (s_ "<!DOCTYPE r [<!ENTITY e 'x<b/>'><!ATTLIST r i NMTOKENS #IMPLIED k CDATA 'v'><!ELEMENT r ANY>]><r i=' 1  2 '>a&e;</r>")
    {| di_version := []; di_encoding := None; di_standalone := None |} ex_decls exd_events [] /\
  declared_once exd_events [] /\ (forall m, In m (map fst (entities ex_decls)) -> stored [] (utf8 m) = None) /\
  exd_events =
    [EInternalSubset (s_ "r") [] []; EEntityDecl (s_ "e") InternalGeneralEntity [] [] (s_ "x<b/>");
     EAttributeDecl (s_ "r") (s_ "i") AttrNmtokens DefImplied [] []; EAttributeDecl (s_ "r") (s_ "k") AttrCDATA DefNone (s_ "v") [];
     EElementDecl (s_ "r") AnyElementType None; EExternalSubset (s_ "r") [] [];
     EStartElement (s_ "r") [] [] [] [AAttr (s_ "i") [] (s_ "1 2"); ADefault (s_ "k") [] (s_ "v")]; ECharacters (s_ "a"); ECharacters (s_ "x");
     EStartElement (s_ "b") [] [] [] []; EEndElement (s_ "b") [] []; EReference (s_ "e"); EEndElement (s_ "r") [] []].
Proof.
  intros eof pct He. split; [apply env0_ok, He|]. split; [exact storeH_remembers|]. split; [exact (exd_document eof pct)|].
  split; [split; [constructor|intros []]|]. split; [reflexivity|]. reflexivity.
Qed.
(* an attribute with an enumerated type: the parser never returns *)
Theorem C56_enumeration_refuted : exists x, x = s_ "<!DOCTYPE r [<!ATTLIST r a (x|y) 'x'>]><r/>" /\ forall eof, eof_ok eof -> hangs eof x.
Proof. eexists. split; [reflexivity|]. exact hang_enum. Qed.
(* a notation: the parser never returns *)
Theorem C56_notation_refuted : exists x, x = s_ "<!DOCTYPE r [<!NOTATION n SYSTEM 's'>]><r/>" /\ forall eof, eof_ok eof -> hangs eof x.
Proof. eexists. split; [reflexivity|]. exact hang_notation. Qed.
(* an external identifier is refused *)
Theorem C56_external_refuted : exists x, x = s_ "<!DOCTYPE r SYSTEM 's'><r/>" /\ forall eof, eof_ok eof -> ~ accepted eof x.
Proof. eexists. split; [reflexivity|]. intros eof [->| ->]; vm_compute; discriminate. Qed.
(* a parameter entity that declares an attribute: the reference has no effect *)
Theorem C56_parameter_refuted : exists x, x = s_ "<!DOCTYPE r [<!ENTITY % p '<!ATTLIST r a CDATA ""d"">'>%p;]><r/>" /\ forall eof, eof_ok eof ->
  accepted eof x /\ body eof x =
    [EInternalSubset (s_ "r") [] []; EEntityDecl (s_ "p") InternalParameterEntity [] [] (s_ "<!ATTLIST r a CDATA ""d"">");
     EExternalSubset (s_ "r") [] []; EStartElement (s_ "r") [] [] [] []; EEndElement (s_ "r") [] []].
Proof. eexists. split; [reflexivity|]. intros eof [->| ->]; split; vm_compute; reflexivity. Qed.

(* ---- C57: references to declared entities are expanded in place ---- *)
(* An element whose content is a reference reports the content of the entity's
   replacement text, then the reference; the general case is C56.  Missing:
   entities in attribute values and default namespaces in entities. *)
Theorem C57_included_partial : forall E, env_ok E -> forall S (H : handler S) known, remembers H known ->
  forall x ds e2 l n t evs1, doctype E x ds e2 -> fine ds -> ncname E l -> In (n, t) (entities ds) -> dcontent E ds 19 false [] t evs1 [] ->
  exists N, forall bom k h, bom_ok bom -> (N <= k)%nat -> (forall m, In m (map fst (entities ds)) -> known h (utf8 m) = None) ->
  exists evs' s', Forall2 same (e2 ++ [start ds l []] ++ evs1 ++ [EReference (utf8 n); EEndElement (utf8 l) [] []]) evs' /\
    Parse E S H k h (bom ++ utf8 (x ++ s_ "<" ++ l ++ s_ ">&" ++ n ++ s_ ";</" ++ l ++ s_ ">")) = (Ret tt, s') /\
    rev (map fst (tr s')) = ESetDocumentLocator :: EStartDocument :: evs' ++ [EEndDocument].
Proof. exact included. Qed.
Example C57_example : forall eof pct, eof_ok eof ->
  doctype (env0 eof pct) ex_type ex_decls ex_type_events /\ fine ex_decls /\ ncname (env0 eof pct) (s_ "r") /\ In (s_ "e", s_ "x<b/>") (entities ex_decls) /\
  dcontent (env0 eof pct) ex_decls 19 false [] (s_ "x<b/>") [ECharacters (s_ "x"); EStartElement (s_ "b") [] [] [] []; EEndElement (s_ "b") [] []] [] /\
  start ex_decls (s_ "r") [] = EStartElement (s_ "r") [] [] [] [ADefault (s_ "k") [] (s_ "v")].
Proof.
  intros eof pct He. split; [exact (ex_doctype eof pct)|]. split; [exact ex_fine|]. split; [nc|]. split; [left; reflexivity|].
  split; [exact (ex_text eof pct 19)|reflexivity].
Qed.
(* the tree builder refuses the document when the entity is text *)
Theorem C57_tree_refuted : exists x, x = s_ "<!DOCTYPE r [<!ENTITY e 'v'>]><r>&e;</r>" /\ accepted 0 x /\ fst (parsed x) <> Ret tt.
Proof. eexists. split; [reflexivity|]. split; vm_compute; [reflexivity|discriminate]. Qed.
(* the text of an entity does not see the namespaces of its context *)
Theorem C57_prefix_refuted : exists x, x = s_ "<!DOCTYPE r [<!ENTITY e '<p:b/>'>]><r xmlns:p='u'>&e;</r>" /\ forall eof, eof_ok eof -> ~ accepted eof x.
Proof. eexists. split; [reflexivity|]. intros eof [->| ->]; vm_compute; discriminate. Qed.

(* ---- C58: the default values of attributes are supplied ---- *)
(* An element without attributes gets the declared defaults, each once, in any
   order.  The general case is C56.  Missing: attributes that are there, and
   empty defaults, see below. *)
Theorem C58_supplied_partial : forall E, env_ok E -> forall S (H : handler S) known, remembers H known ->
  forall x ds e2 l, doctype E x ds e2 -> fine ds -> ncname E l ->
  exists N, forall bom k h, bom_ok bom -> (N <= k)%nat -> (forall m, In m (map fst (entities ds)) -> known h (utf8 m) = None) ->
  exists evs' s', Forall2 same (e2 ++ [start ds l []; EEndElement (utf8 l) [] []]) evs' /\
    Parse E S H k h (bom ++ utf8 (x ++ s_ "<" ++ l ++ s_ "/>")) = (Ret tt, s') /\
    rev (map fst (tr s')) = ESetDocumentLocator :: EStartDocument :: evs' ++ [EEndDocument].
Proof. exact supplied. Qed.
Example C58_example : forall eof pct, eof_ok eof ->
  doctype (env0 eof pct) ex_type ex_decls ex_type_events /\ fine ex_decls /\ ncname (env0 eof pct) (s_ "r") /\
  start ex_decls (s_ "r") [] = EStartElement (s_ "r") [] [] [] [ADefault (s_ "k") [] (s_ "v")].
Proof. intros eof pct He. split; [exact (ex_doctype eof pct)|]. split; [exact ex_fine|]. split; [nc|reflexivity]. Qed.
(* a default is also reported for an attribute that is there *)
Theorem C58_specified_refuted : exists x, x = s_ "<!DOCTYPE r [<!ATTLIST r a CDATA 'd'>]><r a='1'/>" /\ forall eof, eof_ok eof ->
  accepted eof x /\ In (EStartElement (s_ "r") [] [] [] [AAttr (s_ "a") [] (s_ "1"); ADefault (s_ "a") [] (s_ "d")]) (body eof x).
Proof. eexists. split; [reflexivity|]. intros eof [->| ->]; split; vm_compute; auto 6. Qed.
(* an empty default is not supplied *)
Theorem C58_empty_refuted : exists x, x = s_ "<!DOCTYPE r [<!ATTLIST r a CDATA ''>]><r/>" /\ forall eof, eof_ok eof ->
  accepted eof x /\ In (EAttributeDecl (s_ "r") (s_ "a") AttrCDATA DefNone [] []) (body eof x) /\ In (EStartElement (s_ "r") [] [] [] []) (body eof x).
Proof. eexists. split; [reflexivity|]. intros eof [->| ->]; split; [vm_compute; reflexivity|split; vm_compute; auto 6|vm_compute; reflexivity|split; vm_compute; auto 6]. Qed.
(* the tree does not get the default *)
Theorem C58_tree_refuted : exists x t, x = s_ "<!DOCTYPE r [<!ATTLIST r a CDATA 'd'>]><r/>" /\ fst (parsed x) = Ret tt /\
  written x = Ret (t ++ s_ "<r/>" ++ [10]).
Proof.
  eexists. exists (s_ "<?xml version=""1.0""?>" ++ [10] ++ s_ "<!DOCTYPE r [" ++ [10] ++ s_ "<!ATTLIST r a CDATA ""d"">" ++ [10] ++ s_ "]>" ++ [10]).
  split; [reflexivity|]. split; vm_compute; reflexivity.
Qed.

(* ---- C59: tokenised attributes are normalised ---- *)
(* The value of a declared attribute is normalised exactly when its type is not
   CDATA.  The general case is C56.  Missing: prefixed names and entities, see
   below, and values of blanks only, on which the parser panics (C36). *)
Theorem C59_normalised_partial : forall E, env_ok E -> forall S (H : handler S) known, remembers H known ->
  forall x ds e2 l a b e1 e3 q lit v, doctype E x ds e2 -> fine ds -> ncname E l -> In (([], l), a) (declared ds) ->
  (ad_default a = Required \/ ad_default a = Implied) -> ad_name a <> s_ "xmlns" -> b <> [] -> blanks b -> blanks e1 -> blanks e3 ->
  q = 34 \/ q = 39 -> attlit q lit v -> is_cdata (ad_type a) = true \/ v = [] \/ tokens v <> [] ->
  exists N, forall bom k h, bom_ok bom -> (N <= k)%nat -> (forall m, In m (map fst (entities ds)) -> known h (utf8 m) = None) ->
  exists evs' s', Forall2 same (e2 ++ [start ds l [AAttr (utf8 (ad_name a)) [] (typed (ad_type a) v)]; EEndElement (utf8 l) [] []]) evs' /\
    Parse E S H k h (bom ++ utf8 (x ++ s_ "<" ++ l ++ (b ++ ad_name a ++ e1 ++ [61] ++ e3 ++ [q] ++ lit ++ [q]) ++ s_ "/>")) = (Ret tt, s') /\
    rev (map fst (tr s')) = ESetDocumentLocator :: EStartDocument :: evs' ++ [EEndDocument].
Proof. exact normalised. Qed.
Example C59_example : forall eof pct, eof_ok eof ->
  doctype (env0 eof pct) ex_type ex_decls ex_type_events /\ fine ex_decls /\ ncname (env0 eof pct) (s_ "r") /\ In (([], s_ "r"), ex_i) (declared ex_decls) /\
  ad_default ex_i = Implied /\ tokens (s_ " 1  2 ") = [s_ "1"; s_ "2"] /\ typed (ad_type ex_i) (s_ " 1  2 ") = s_ "1 2" /\ typed CDATA (s_ " 1  2 ") = s_ " 1  2 ".
Proof. intros eof pct He. split; [exact (ex_doctype eof pct)|]. split; [exact ex_fine|]. split; [nc|]. split; [left; reflexivity|]. repeat split. Qed.
(* an element with a prefix: the value is left as it is *)
Theorem C59_prefix_refuted : exists x, x = s_ "<!DOCTYPE p:r [<!ATTLIST p:r a NMTOKENS #IMPLIED>]><p:r xmlns:p='u' a=' x  y '/>" /\ forall eof, eof_ok eof ->
  accepted eof x /\ In (EStartElement (s_ "r") (s_ "p") (s_ "u") [Some (s_ "p", s_ "u")] [AAttr (s_ "a") [] (s_ " x  y ")]) (body eof x).
Proof. eexists. split; [reflexivity|]. intros eof [->| ->]; split; vm_compute; auto 6. Qed.
(* inside an entity the value is left as it is *)
Theorem C59_entity_refuted : exists x, x = s_ "<!DOCTYPE r [<!ATTLIST b a NMTOKENS #IMPLIED><!ENTITY e '<b a="" x  y ""/>'>]><r>&e;</r>" /\ forall eof, eof_ok eof ->
  accepted eof x /\ In (EStartElement (s_ "b") [] [] [] [AAttr (s_ "a") [] (s_ " x  y ")]) (body eof x).
Proof. eexists. split; [reflexivity|]. intros eof [->| ->]; split; vm_compute; auto 9. Qed.

(* ---- C60: declarations become nodes of the internal subset ---- *)
(* The tree of a document with a document type declaration has the nodes that
   the document denotes, and between them an internal subset with one node for
   each declaration, in order: an entity with its replacement text and literal,
   an element with a content model for what was declared, an attribute with its
   type and default.  Missing: references to entities in the content and
   instructions in the subset (refuted below), and types declared twice. *)
Theorem C60_nodes_partial : forall E src i ds evs d xs1 name xs2 m, env_ok E -> ddocument E src i ds evs d -> declared_once evs d ->
  dmirrors evs xs1 name xs2 -> no_text xs2 -> elements_once ds -> (evs_len evs < m)%nat -> Forall (fun e => (value_len e < m)%nat) evs ->
  exists N, forall bom n, bom_ok bom -> (N <= n)%nat ->
  exists s' p dd, Parse E tb (treeH m) n tb_init (bom ++ utf8 src) = (Ret tt, s') /\ tb_doc (hs s') = Some p /\
    document_has (tb_heap (hs s')) p (di_version i) (match di_encoding i with Some e => e | None => [] end) (sa_code (di_standalone i)) xs1 name dd xs2 /\
    Forall2 (stands_for E) (singles ds) dd.
Proof. exact document_nodes. Qed.
Example C60_example : forall eof pct, eof_ok eof ->
  env_ok (env0 eof pct) /\
  ddocument (env0 eof pct)
    (s_ "<!--c--><!DOCTYPE r [<!ENTITY e 'x<b/>'><!ATTLIST r i NMTOKENS #IMPLIED k CDATA 'v'><!ELEMENT r ANY>]><r i=' 1  2 '>a</r>")
    {| di_version := []; di_encoding := None; di_standalone := None |} ex_decls ext_events [] /\
  declared_once ext_events [] /\
  dmirrors ext_events [XComment (s_ "c")] (s_ "r") [XElem (s_ "r") None [] [(s_ "i", s_ "1 2")] [XText (s_ "a")]] /\
  no_text [XElem (s_ "r") None [] [(s_ "i", s_ "1 2")] [XText (s_ "a")]] /\ elements_once ex_decls /\ parameters_once ex_decls /\
  (evs_len ext_events < 4)%nat /\ Forall (fun e => (value_len e < 4)%nat) ext_events /\
  singles ex_decls = [OneEntity false (s_ "e") (s_ "x<b/>"); OneAttribute [] (s_ "r") ex_i; OneAttribute [] (s_ "r") ex_k; OneElement [] (s_ "r") Any].
Proof.
  intros eof pct He. split; [apply env0_ok, He|]. split; [exact (ext_document eof pct)|]. split; [split; [constructor|intros []]|]. split.
  { refine (dm [EComment (s_ "c")] (s_ "r") (firstn 4 (tl ex_type_events)) ext_root [XComment (s_ "c")] _ _ _ _); [repeat constructor| |].
    - repeat constructor.
    - refine (mi_elem (s_ "r") [] [] [] _ [(s_ "i", s_ "1 2")] [ECharacters (s_ "a")] [XText (s_ "a")] _ _ _ [] [] _ _ _ mi_nil).
      + refine (ma_attr (s_ "i") [] (s_ "1 2") _ _ _ _); [repeat constructor|]. constructor. constructor.
      + repeat constructor. intros [].
      + refine (mi_text [ECharacters (s_ "a")] [s_ "a"] [] [] _ _ _ mi_nil); [discriminate|constructor; [left; reflexivity|constructor]|].
        intros (? & ? & ? & X & _). discriminate X. }
  split; [intros s [X|[]]; discriminate X|]. split; [repeat constructor; intros []|]. split; [repeat constructor|].
  split; [vm_compute; repeat constructor|]. split; [|reflexivity]. repeat constructor.
Qed.
(* an instruction in the subset is also a child of the document: from the first
   child of the subset on one reaches the root element *)
Theorem C60_pi_refuted : exists x d dtd q r c1 c2 c3 c4, x = s_ "<!DOCTYPE r [<?p d?>]><r/>" /\ fst (parsed x) = Ret tt /\
  let h := tb_heap (snd (parsed x)) in tb_doc (snd (parsed x)) = Some d /\
  hget h d = Some c1 /\ dat c1 = DDoc [] [] StandaloneImplicitNo (Some dtd) None /\ TreeShape.path h (l_first (lk c1)) [dtd; q; r] /\
  hget h dtd = Some c2 /\ TreeShape.path h (l_first (lk c2)) [q; r] /\
  hget h q = Some c3 /\ dat c3 = DPI (s_ "p") (s_ "d") /\ hget h r = Some c4 /\ dat c4 = DElem (s_ "r") None [] None.
Proof. exact pi_twice. Qed.
(* a document of the grammar that is refused: the replacement text "x<b/>" of
   the entity is parsed with no current element, and text there is an error *)
Theorem C60_reference_refuted : exists E src i ds evs e, env_ok E /\ ddocument E src i ds evs [] /\ declared_once evs [] /\
  fst (Parse E tb (treeH 60) 400 tb_init (utf8 src)) = Fail e.
Proof.
  exists (env0 0 false), exd_src, {| di_version := []; di_encoding := None; di_standalone := None |}, ex_decls, exd_events. eexists.
  split; [apply env0_ok; left; reflexivity|]. split; [exact (exd_document 0 false)|]. split; [split; [constructor|intros []]|]. vm_compute. reflexivity.
Qed.
(* An attribute that is declared twice, where XML lets the first declaration
   count (3.3), and an element type that is declared twice, which is a matter of
   validity: a handler that takes what it is told accepts both documents, but
   the library makes no tree of them. *)
Theorem C60_attribute_twice_refuted : exists x e, x = s_ "<!DOCTYPE r [<!ATTLIST r a CDATA #IMPLIED a CDATA 'd'>]><r/>" /\
  (forall eof, eof_ok eof -> accepted eof x) /\ fst (parsed x) = Fail e.
Proof. eexists. eexists. split; [reflexivity|]. split; [intros eof [->| ->]; vm_compute; reflexivity|]. vm_compute. reflexivity. Qed.
Theorem C60_element_twice_refuted : exists x e, x = s_ "<!DOCTYPE r [<!ELEMENT r ANY><!ELEMENT r ANY>]><r/>" /\
  (forall eof, eof_ok eof -> accepted eof x) /\ fst (parsed x) = Fail e.
Proof. eexists. eexists. split; [reflexivity|]. split; [intros eof [->| ->]; vm_compute; reflexivity|]. vm_compute. reflexivity. Qed.

(* ---- C61: declarations can be looked up after the parse ---- *)
(* The document finds the declared entities, its internal subset the declared
   elements and attributes, each as the node that stands for it. *)
Theorem C61_answers_partial : forall E src i ds evs d xs1 name xs2 m, env_ok E -> ddocument E src i ds evs d -> declared_once evs d ->
  dmirrors evs xs1 name xs2 -> no_text xs2 -> elements_once ds -> parameters_once ds -> (evs_len evs < m)%nat ->
  Forall (fun e => (value_len e < m)%nat) evs ->
  exists N, forall bom n, bom_ok bom -> (N <= n)%nat ->
  exists s' p dd, Parse E tb (treeH m) n tb_init (bom ++ utf8 src) = (Ret tt, s') /\ tb_doc (hs s') = Some p /\
    Forall2 (stands_for E) (singles ds) dd /\ Forall2 (answered (tb_heap (hs s')) p) (singles ds) dd.
Proof. exact document_answers. Qed.
(* C60_example meets the hypotheses *)
(* the second declaration of an entity is found, although the first one binds *)
Theorem C61_twice_refuted : exists x d q c, x = s_ "<!DOCTYPE r [<!ENTITY e 'a'><!ENTITY e 'b'>]><r/>" /\ fst (parsed x) = Ret tt /\
  let h := tb_heap (snd (parsed x)) in tb_doc (snd (parsed x)) = Some d /\ fst (GetEntity (Some d) (s_ "e") h) = Ret (Some q) /\
  hget h q = Some c /\ dat c = Heap.DEntity (s_ "e") InternalGeneralEntity [] [] (s_ "b") (s_ "b").
Proof. exact entity_twice. Qed.

(* ---- C62: a tree with declarations, written and read again ---- *)
(* A tree with an internal subset is written as a document that is read as the
   same tree, with declarations that stand for the same, in the same order,
   and that are found again.  Adjacent texts become one (norms).  The tree is
   any heap of this form, however it was made.  [kept] leaves out the content
   models that are refused (C43), attributes of type ENTITIES and defaults
   that do not stand for themselves; [calm] leaves out attributes that the
   parser gets wrong under these declarations (C58, C59).  Missing also: a
   subset with comments, and references to entities in the content. *)
Theorem C62_declared_partial : forall E h d v e sa xs1 name dd xs2 ds p0 l0, env_ok E ->
  document_has h d v e (sa_code sa) xs1 name dd xs2 -> name = utf8 (qname p0 l0) -> pname E p0 l0 ->
  Forall is_comment xs1 -> tidies E [] xs1 -> tidy_document E xs2 -> writables (xs1 ++ xs2) -> Forall (DoctypeKept.calm ds) xs2 ->
  fine ds -> elements_once ds -> parameters_once ds ->
  Forall2 (DoctypeKept.kept E) (singles ds) dd -> Forall2 (answered h d) (singles ds) dd ->
  (v = [] \/ version_num v) -> (e = [] \/ (enc_name e /\ utf8_name e)) ->
  exists t, (exists k0, forall k, (k0 <= k)%nat -> dumpDoc h k d = Ret t) /\
  exists m0, forall m, (m0 <= m)%nat -> exists N, forall n, (N <= n)%nat ->
  exists s' p dd', Parse E tb (treeH m) n tb_init t = (Ret tt, s') /\ tb_doc (hs s') = Some p /\ wf (tb_heap (hs s')) /\
    document_has (tb_heap (hs s')) p (version_of v) e (sa_code sa) xs1 name dd' (norms xs2) /\
    Forall2 (stands_for E) (singles ds) dd' /\ Forall2 (answered (tb_heap (hs s')) p) (singles ds) dd'.
Proof. intros E h d v e sa xs1 name dd xs2 ds p0 l0 OK. exact (DoctypeRound.declared_round_trip E OK h d v e sa xs1 name dd xs2 ds p0 l0). Qed.
(* the tree of a document that was read *)
Example C62_example : forall eof pct, eof_ok eof -> let E := env0 eof pct in let h := heap_of ext_src in
  ext_src = s_ "<!--c--><!DOCTYPE r [<!ENTITY e 'x<b/>'><!ATTLIST r i NMTOKENS #IMPLIED k CDATA 'v'><!ELEMENT r ANY>]><r i=' 1  2 '>a</r>" /\
  document_has h 1%positive [] [] (sa_code None) [XComment (s_ "c")] (utf8 (qname [] (s_ "r"))) ext_nodes ext_tree /\ pname E [] (s_ "r") /\
  Forall is_comment [XComment (s_ "c")] /\ tidies E [] [XComment (s_ "c")] /\ tidy_document E ext_tree /\
  writables ([XComment (s_ "c")] ++ ext_tree) /\ Forall (DoctypeKept.calm ex_decls) ext_tree /\
  fine ex_decls /\ elements_once ex_decls /\ parameters_once ex_decls /\
  Forall2 (DoctypeKept.kept E) (singles ex_decls) ext_nodes /\ Forall2 (answered h 1%positive) (singles ex_decls) ext_nodes /\
  written ext_src = Ret (s_ "<?xml version=""1.0""?>" ++ [10] ++ s_ "<!--c-->" ++ [10] ++ s_ "<!DOCTYPE r [" ++ [10] ++
    s_ "<!ENTITY e ""x<b/>"">" ++ [10] ++ s_ "<!ATTLIST r i NMTOKENS #IMPLIED>" ++ [10] ++ s_ "<!ATTLIST r k CDATA ""v"">" ++ [10] ++
    s_ "<!ELEMENT r ANY>" ++ [10] ++ s_ "]>" ++ [10] ++ s_ "<r i=""1 2"">a</r>" ++ [10]).
Proof.
  intros eof pct He E h. destruct ext_parsed as (_ & _ & Has & An). destruct (ext_tidy eof pct) as (T1 & T2 & C).
  split; [reflexivity|]. split; [exact Has|]. split; [split; [split; [left; reflexivity|nc]|discriminate]|].
  split; [repeat constructor; exists (s_ "c"); reflexivity|]. split; [exact T1|]. split; [exact T2|]. split; [vm_compute; intuition discriminate|]. split; [exact C|].
  split; [exact ex_fine|]. split; [repeat constructor; intros []|]. split; [repeat constructor|]. split; [apply ext_kept, He|]. split; [exact An|].
  vm_compute. reflexivity.
Qed.
(* a document that was read cannot be written *)
Theorem C62_entities_refuted : exists x, x = s_ "<!DOCTYPE r [<!ATTLIST r a ENTITIES #IMPLIED>]><r/>" /\
  fst (parsed x) = Ret tt /\ written x = Fail "invalid AttributeDecl type"%string.
Proof. eexists. split; [reflexivity|]. exact entities_unwritten. Qed.
(* what was written for a document that was read cannot be read *)
Theorem C62_default_refuted : exists x t, x = s_ "<!DOCTYPE r [<!ATTLIST r a CDATA 'x&#60;y'>]><r/>" /\
  fst (parsed x) = Ret tt /\ written x = Ret t /\ fst (parsed t) = Fail (PErr (Plain "string not closed")).
Proof. destruct default_unread as (t & H). exists (s_ "<!DOCTYPE r [<!ATTLIST r a CDATA 'x&#60;y'>]><r/>"), t. split; [reflexivity|exact H]. Qed.

(* ---- assumptions ---- *)
Print Assumptions C56_reported_partial.
Print Assumptions C56_enumeration_refuted.
Print Assumptions C56_notation_refuted.
Print Assumptions C56_external_refuted.
Print Assumptions C56_parameter_refuted.
Print Assumptions C57_included_partial.
Print Assumptions C57_tree_refuted.
Print Assumptions C57_prefix_refuted.
Print Assumptions C58_supplied_partial.
Print Assumptions C58_specified_refuted.
Print Assumptions C58_empty_refuted.
Print Assumptions C58_tree_refuted.
Print Assumptions C59_normalised_partial.
Print Assumptions C59_prefix_refuted.
Print Assumptions C59_entity_refuted.
Print Assumptions C60_nodes_partial.
Print Assumptions C60_pi_refuted.
Print Assumptions C60_reference_refuted.
Print Assumptions C60_attribute_twice_refuted.
Print Assumptions C60_element_twice_refuted.
Print Assumptions C61_answers_partial.
Print Assumptions C61_twice_refuted.
Print Assumptions C62_declared_partial.
Print Assumptions C62_entities_refuted.
Print Assumptions C62_default_refuted.

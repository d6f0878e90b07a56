(* C63: what the parser accepts.  Loose.v extends the grammar of Grammar.v by
   named leniencies and is independent of the parser. *)
From Verif Require Import Base Utf8 Encoding EncodingProofs XmlSpec Scan ScanProofs Parser Grammar Complete Sample Heap TreeBuilder
  Loose LooseLex LooseDecl LooseProofs LooseDoc LooseStrict LooseTree LooseEx.
Local Open Scope Z_scope.

(* A document that is accepted and has no document type declaration is of the
   form Loose.v describes with all its leniencies, and the events reported are
   the ones it gives.  [good] holds of the states of the handler in which it
   knows no entity; only declarations lead out of them.  [marked]: the encoding
   that the first bytes stand for and the text after a mark.
   Missing: documents with declarations; an input whose scanner window is
   overrun (over). *)
Theorem C63_accepted_partial : forall E, env_ok E ->
  (forall c, isLetter E c || isDigit E c = true -> xml_char c = true) -> (forall n l, over E n l = []) ->
  forall S (H : handler S) (good : S -> Prop),
  (forall h v e, good h -> dtd_event e = false -> good (fst (h_event H h v e))) ->
  (forall h v n, good h -> forall x, snd (h_getEntity H h v n) <> Answer x false) ->
  forall n h bytes s', good h -> Parse E S H n h bytes = (Ret tt, s') -> no_doctype (map fst (tr s')) ->
  exists detected text hdr rest enc sa c evs d,
    marked bytes detected text /\ text = hdr ++ rest /\
    ((hdr = [] /\ enc = None /\ sa = None /\ version s' = [] /\ has_prefix (s_ "<?xml") rest = false) \/ lheader all hdr (version s') enc sa) /\
    Load (lower E) (match enc with Some e => e | None => detected end) = Some c /\
    lbody all E (decode E c rest) evs d /\
    encoding s' = text_of enc /\ standalone s' = sa_of sa /\
    rev (map fst (tr s')) = ESetDocumentLocator :: EStartDocument :: evs ++ [EEndDocument].
Proof. exact accepted_is_loose. Qed.

(* the same for the default handler, the tree builder *)
Theorem C63_tree_partial : forall E, env_ok E ->
  (forall c, isLetter E c || isDigit E c = true -> xml_char c = true) -> (forall n l, over E n l = []) ->
  forall k n bytes s', Parse E tb (treeH k) n tb_init bytes = (Ret tt, s') -> no_doctype (map fst (tr s')) ->
  exists detected text hdr rest enc sa c evs d,
    marked bytes detected text /\ text = hdr ++ rest /\
    ((hdr = [] /\ enc = None /\ sa = None /\ version s' = [] /\ has_prefix (s_ "<?xml") rest = false) \/ lheader all hdr (version s') enc sa) /\
    Load (lower E) (match enc with Some e => e | None => detected end) = Some c /\
    lbody all E (decode E c rest) evs d /\
    encoding s' = text_of enc /\ standalone s' = sa_of sa /\
    rev (map fst (tr s')) = ESetDocumentLocator :: EStartDocument :: evs ++ [EEndDocument].
Proof. exact tree_accepted. Qed.
Example C63_tree_example : env_ok (env0 0 false) /\
  (forall c, isLetter (env0 0 false) c || isDigit (env0 0 false) c = true -> xml_char c = true) /\
  (forall n l, over (env0 0 false) n l = []) /\
  exists s', Parse (env0 0 false) tb (treeH 60) 400 tb_init sloppy = (Ret tt, s') /\ no_doctype (map fst (tr s')).
Proof. split; [apply env0_ok; left; reflexivity|]. split; [apply letters_legal|]. split; [reflexivity|]. exact sloppy_accepted. Qed.

(* Without leniencies nothing but the grammar of well-formed documents is left:
   every deviation is one of those named. *)
Theorem C63_strict : forall E hdr rest ver enc sa evs d,
  (hdr = [] /\ enc = None /\ sa = None /\ ver = [] /\ has_prefix (s_ "<?xml") rest = false) \/ lheader none hdr ver enc sa ->
  (forall n, enc = Some n -> utf8_name n) -> lbody none E rest evs d ->
  exists evs', document E (hdr ++ rest) {| di_version := ver; di_encoding := enc; di_standalone := sa |} evs' d /\ Forall2 same_text evs' evs.
Proof. exact strict_document. Qed.
Example C63_strict_example : forall eof, lbody none (env0 eof false) (s_ "<r a='1'>x</r>")
  [EStartElement (s_ "r") [] [] [] [AAttr (s_ "a") [] (s_ "1")]; ECharacters (s_ "x"); EEndElement (s_ "r") [] []] [] /\
  has_prefix (s_ "<?xml") (s_ "<r a='1'>x</r>") = false.
Proof. intros eof. split; [apply plain_body|reflexivity]. Qed.

(* not every accepted document is well-formed *)
Theorem C63_well_formed_refuted : exists src, forall eof, eof_ok eof ->
  accepted eof src /\ (forall i evs d, ~ document (env0 eof false) src i evs d).
Proof. exact colon_accepted. Qed.

(* ---- assumptions ---- *)
Print Assumptions C63_accepted_partial.
Print Assumptions C63_tree_partial.
Print Assumptions C63_strict.
Print Assumptions C63_well_formed_refuted.

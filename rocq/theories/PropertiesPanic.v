(* C22, no panic, for documents that may have a document type declaration, and
   for parsing into a tree.  [tame] and what it is made of are in DtdSafe.v;
   [one_default] and [prefixes_named] in TreeSafeParse.v. *)
From Verif Require Import Base Utf8 XmlSpec Encoding Scan ScanProofs Parser LexProofs Sample Counter ParserEx PropertiesParser NoPanic Heap TreeBuilder LooseEx DtdSafe DtdSafeEx TreeSafeParse TreeSafeEx TreeSafeDoctype TreeSafeDoctypeEx.
Local Open Scope Z_scope.

(* ---- C22: no panic ---- *)
(* Every handler that does not panic itself and every input in which no
   reference is to an entity unknown to the handler: if the input has a
   document type declaration, the four constructs of [tame] must not occur in
   it.  Missing: inputs that have one of them, on some of which the parser does
   panic, see below. *)
Theorem C22_doctype_partial : forall E, env_ok E -> forall S (H : handler S) (good : S -> Prop) (G : str -> Prop),
  (forall h v e, good h -> good (fst (h_event H h v e)) /\ snd (h_event H h v e) <> HPanic) ->
  (forall h v n, good h -> G n ->
     exists e, snd (h_getEntity H h v n) = Answer (Some (Real e)) false /\ e_type e <> InternalPredefinedEntity /\
       (e_type e = InternalGeneralEntity -> refs_ok E G (runes_of (e_content e)))) ->
  (forall h v n, good h -> good (fst (h_getEntity H h v n)) /\ snd (h_getEntity H h v n) <> AnswerPanic) ->
  (forall h v n, good h -> good (fst (h_getPEntity H h v n)) /\ snd (h_getPEntity H h v n) <> AnswerPanic) ->
  (forall h e v, good h -> good (h_setOrig H h e v)) ->
  (forall h l p v, good h -> good (fst (h_createAttr H h l p v)) /\ snd (h_createAttr H h l p v) <> Pan) ->
  (forall h, good h -> good (h_chunkEnter H h)) -> (forall h h', good h -> good h' -> good (h_chunkLeave H h h')) ->
  forall bytes, (forall c rest, suffix rest bytes -> refs_ok E G (decode E c rest) /\ (no_doctype (decode E c rest) \/ tame (decode E c rest))) ->
  (forall a r, bytes = a ++ s_ "<?xml" ++ r -> late_percent bytes) ->
  forall n h, good h -> fst (Parse E S H n h bytes) <> Pan.
Proof. exact DtdSafe.Parse_safe. Qed.
(* each construct that [tame] excludes does make the parser panic; for the
   character reference that is cut off see C22_entity_value_refuted *)
Theorem C22_group_plus_refuted : exists x, x = s_ "<!DOCTYPE r [<!ELEMENT r ((a))+>]><r/>" /\ forall eof, eof_ok eof -> panics eof x.
Proof. exists (s_ "<!DOCTYPE r [<!ELEMENT r ((a))+>]><r/>"). split; [reflexivity|]. wit. Qed.
Theorem C22_space_reference_refuted : exists x, x = s_ "<!DOCTYPE r [<!ATTLIST r a NMTOKEN #IMPLIED>]><r a='&#32;'/>" /\
  forall eof, eof_ok eof -> panics eof x.
Proof. exists (s_ "<!DOCTYPE r [<!ATTLIST r a NMTOKEN #IMPLIED>]><r a='&#32;'/>"). split; [reflexivity|]. wit. Qed.
(* an ELEMENT declaration, three attributes with defaults and a reference in
   one of them, an entity with a character reference, a comment and a
   processing instruction *)
Example C22_doctype_ex : forall eof, eof_ok eof -> (forall n, fst (Parse (env0 eof false) _ loopH n tt dtd_src) <> Pan) /\
  fst (Parse (env0 eof false) _ loopH 300 tt dtd_src) = Ret tt.
Proof.
  intros eof He. split.
  - intros n. apply (C22_doctype_partial (env0 eof false) (env0_ok eof false He)) with (good := fun _ => True) (G := only_e); auto.
    + intros; split; [auto|discriminate].
    + exact (dtd_entity eof false).
    + intros h v m _. split; [auto|]. cbn. destruct (str_eqb m _); discriminate.
    + intros; split; [auto|discriminate].
    + intros; split; [auto|discriminate].
    + exact (dtd_by eof false).
    + intros a r Hr. exfalso. exact (dtd_no_decl a r Hr).
  - destruct He as [->| ->]; vm_compute; reflexivity.
Qed.

(* Parsing into a tree: the tree builder is the handler, whose own panics are
   not assumed away.  [fitting] is in TreeSafeDoctype.v: only predefined entities
   are referred to, the constructs that [tame] leaves out are absent if there is
   a document type declaration, and no processing instruction follows an opening
   bracket after it.  Missing: inputs that refer to declared entities, have such
   processing instructions, two default namespace declarations, or xmlns: not
   followed by a name; and fuel for copying text that is smaller than five times
   the input. *)
Theorem C22_tree_partial : forall E, env_ok E /\ (forall c, isLetter E c || isDigit E c = true -> xml_char c = true) /\ (forall n l, over E n l = []) ->
  forall f bytes, (forall c rest, suffix rest bytes -> fitting E f (decode E c rest) /\ one_default (decode E c rest) /\ prefixes_named E (decode E c rest)) ->
  (forall a r, bytes = a ++ s_ "<?xml" ++ r -> late_percent bytes) ->
  forall n, fst (Parse E tb (treeH f) n tb_init bytes) <> Pan.
Proof. exact tree_no_panic. Qed.
(* Without the two conditions on namespace declarations there is one cause of a
   panic left: a missing entry in the list of namespaces of a start tag, at
   which the tree builder stops. *)
Theorem C22_tree_nil_partial : forall E, env_ok E /\ (forall c, isLetter E c || isDigit E c = true -> xml_char c = true) /\ (forall n l, over E n l = []) ->
  forall f bytes, (forall c rest, suffix rest bytes -> fitting E f (decode E c rest)) ->
  (forall a r, bytes = a ++ s_ "<?xml" ++ r -> late_percent bytes) ->
  forall n, fst (Parse E tb (treeH f) n tb_init bytes) = Pan ->
  exists l p u ns a t, tr (snd (Parse E tb (treeH f) n tb_init bytes)) = (EStartElement l p u ns a, HPanic) :: t /\ In None ns.
Proof. exact tree_nil_only. Qed.
(* the default namespace declared twice in one start tag *)
Theorem C22_namespace_twice_refuted : exists x, x = s_ "<a xmlns='u' xmlns='v'/>" /\
  forall eof, eof_ok eof -> fst (Parse (env0 eof false) tb (treeH 200) 400 tb_init x) = Pan.
Proof. exists (s_ "<a xmlns='u' xmlns='v'/>"). split; [reflexivity|]. wit. Qed.
(* declared namespaces, references in values, text, a comment, a processing
   instruction and a CDATA section; and a document type declaration *)
Example C22_tree_ex : forall eof, eof_ok eof ->
  (forall n, fst (Parse (env0 eof false) tb (treeH 700) n tb_init names_src) <> Pan) /\
  fst (Parse (env0 eof false) tb (treeH 700) 700 tb_init names_src) = Ret tt /\
  (forall n, fst (Parse (env0 eof false) tb (treeH 1500) n tb_init typed_src) <> Pan) /\
  fst (Parse (env0 eof false) tb (treeH 1500) 1500 tb_init typed_src) = Ret tt.
Proof.
  intros eof He. assert (U := conj (env0_ok eof false He) (conj (letters_legal eof false) (fun _ _ => eq_refl)) : env_ok (env0 eof false) /\ _ /\ (forall n l, over (env0 eof false) n l = [])).
  refine (conj _ (conj _ (conj _ _))).
  - intros n. apply (C22_tree_partial _ U); [|intros a r _; exact names_percent]. intros c rest S. split; [exact (names_fitting eof false c rest S)|].
    destruct (names_by eof false c rest S) as (_ & _ & _ & N). exact N.
  - destruct He as [->| ->]; vm_compute; reflexivity.
  - intros n. apply (C22_tree_partial _ U); [exact (typed_by eof false)|intros a r _; exact typed_percent].
  - destruct He as [->| ->]; vm_compute; reflexivity.
Qed.

(* ---- assumptions ---- *)
Print Assumptions C22_doctype_partial.
Print Assumptions C22_group_plus_refuted.
Print Assumptions C22_space_reference_refuted.
Print Assumptions C22_tree_partial.
Print Assumptions C22_tree_nil_partial.
Print Assumptions C22_namespace_twice_refuted.

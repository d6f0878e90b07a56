(* C68: which document type declarations the parser accepts and what it reports
   of them.  LooseDtd.v is the grammar: the productions of XML 1.0 for what the
   parser knows, and its leniencies, each marked "loose".
   C69: what it accepts after such a declaration.  LooseBody.v is the grammar,
   and tells how the declarations change what is reported. *)
From Verif Require Import Base Utf8 Encoding EncodingProofs XmlSpec Scan ScanProofs Parser Complete Sample Counter Loose LooseLex LooseDecl LooseProofs LooseDoc LooseEx
  Content TermDtd Grammar LooseDtd LooseModel LooseSubset LooseBody LooseDtdDoc LooseTables LooseDtdEx.
Local Open Scope Z_scope.

(* A document that is accepted and has a document type declaration: before the
   declaration there are comments, processing instructions and white space, the
   declaration t is of the form LooseDtd.v describes, and the events devs it
   prescribes are reported, in the order of the text.  No other declaration is
   reported, neither before nor after.
   The value of a default is the one of its literal, and the content model
   reported admits the children that the text describes if it is one of those
   C43 is about; what a reference to an entity in a default stands for is told
   for an application that answers with the entity it is asked for (truthful).
   Missing: content models outside C43 are not related to the text; an input
   whose scanner window is overrun.  The text after the declaration is the
   subject of C69. *)
Theorem C68_doctype_partial : forall E, env_ok E ->
  (forall c, isLetter E c || isDigit E c = true -> xml_char c = true) -> (forall n l, over E n l = []) ->
  forall S (H : handler S) n h bytes s', Parse E S H n h bytes = (Ret tt, s') -> ~ no_doctype (map fst (tr s')) ->
  exists detected text hdr rest ver enc sa c m t after e1 devs later,
    marked bytes detected text /\ text = hdr ++ rest /\
    ((hdr = [] /\ enc = None /\ sa = None /\ ver = [] /\ has_prefix (s_ "<?xml") rest = false) \/ lheader all hdr ver enc sa) /\
    Load (lower E) (match enc with Some e => e | None => detected end) = Some c /\
    decode E c rest = m ++ t ++ after /\ lmisc all E m e1 /\ doctype_text E (truthful H) t devs /\ plain_events later /\
    rev (map fst (tr s')) = ESetDocumentLocator :: EStartDocument :: e1 ++ devs ++ later.
Proof. exact doctype_accepted. Qed.
Example C68_doctype_ex : env_ok (env0 0 false) /\
  (forall c, isLetter (env0 0 false) c || isDigit (env0 0 false) c = true -> xml_char c = true) /\
  (forall n l, over (env0 0 false) n l = []) /\
  truthful knownH /\
  exists s', Parse (env0 0 false) (list ent) knownH 400 [] loose_dtd = (Ret tt, s') /\ ~ no_doctype (map fst (tr s')).
Proof. split; [apply env0_ok; left; reflexivity|]. split; [apply letters_legal|]. split; [reflexivity|]. split; [exact known_truthful|]. exact loose_dtd_accepted. Qed.

(* Declarations of elements in which parentheses are left open are accepted. *)
Theorem C68_group_refuted : exists src, In 40 src /\ ~ In 41 src /\ ~ In 34 src /\ ~ In 39 src /\ ~ contains (s_ "<!--") src /\ ~ contains (s_ "<?") src /\
  forall eof, eof_ok eof -> accepted eof src.
Proof.
  exists open_group. assert (N : forall x, existsb (Z.eqb x) open_group = false -> ~ In x open_group).
  { intros x Hx Hi. assert (X : existsb (Z.eqb x) open_group = true) by (apply existsb_exists; exists x; split; [auto|apply Z.eqb_refl]). congruence. }
  split; [cbn; tauto|]. split; [apply N; reflexivity|]. split; [apply N; reflexivity|]. split; [apply N; reflexivity|].
  split; [intros (a & b & Hab); apply (N 45); [reflexivity|]; rewrite Hab; apply in_or_app; right; cbn; auto|].
  split; [intros (a & b & Hab); apply (N 63); [reflexivity|]; rewrite Hab; apply in_or_app; right; cbn; auto|]. exact open_group_accepted.
Qed.
(* A declaration of an entity may be accepted and yet not be reported: here the
   literal has a percent sign. *)
Theorem C68_entity_refuted : exists name value, legals name /\ legals value /\ forall eof, eof_ok eof ->
  let src := s_ "<!DOCTYPE r [<!ENTITY " ++ name ++ s_ " '" ++ value ++ s_ "'>]><r/>" in
  accepted eof src /\ forall t p u v, ~ In (EEntityDecl (utf8 name) t p u v) (events eof src).
Proof.
  exists (s_ "half"), (s_ "50%"). split; [repeat (constructor; [reflexivity|]); constructor|]. split; [repeat (constructor; [reflexivity|]); constructor|].
  intros eof He src. change src with half_off. split; [apply half_off_events; auto|]. intros t p u v. destruct He as [->| ->]; vm_compute; intros Hin;
    repeat (destruct Hin as [Hin|Hin]; [discriminate Hin|]); exact Hin.
Qed.

(* A document that is accepted and has a document type declaration: the text
   after the declaration is of the form LooseBody.v describes, for the
   declarations devs of attributes that were reported, and the events later that
   it prescribes are reported.  The attributes in [given] are added to the start
   tags.  They are the declared defaults, each the first one declared for its
   attribute: all of them if the application can create them (creates), some of
   them otherwise.
   Missing: what is reported of the text of an entity is only known to be a
   balanced sequence of events before the report of the reference; an input
   whose scanner window is overrun. *)
Theorem C69_document_partial : forall E, env_ok E ->
  (forall c, isLetter E c || isDigit E c = true -> xml_char c = true) -> (forall n l, over E n l = []) ->
  forall S (H : handler S) n h bytes s', Parse E S H n h bytes = (Ret tt, s') -> ~ no_doctype (map fst (tr s')) ->
  exists detected text hdr rest ver enc sa c m t after e1 devs given later,
    marked bytes detected text /\ text = hdr ++ rest /\
    ((hdr = [] /\ enc = None /\ sa = None /\ ver = [] /\ has_prefix (s_ "<?xml") rest = false) \/ lheader all hdr ver enc sa) /\
    Load (lower E) (match enc with Some e => e | None => detected end) = Some c /\
    decode E c rest = m ++ t ++ after /\ lmisc all E m e1 /\ doctype_text E (truthful H) t devs /\
    some_of given (first_defaults [] (att_decls devs)) /\ (creates H -> given = first_defaults [] (att_decls devs)) /\
    bbody E (truthful H) (normalised (att_decls devs)) (added given) after later /\
    rev (map fst (tr s')) = ESetDocumentLocator :: EStartDocument :: e1 ++ devs ++ later ++ [EEndDocument].
Proof. exact document_accepted. Qed.
Example C69_document_ex : env_ok (env0 0 false) /\
  (forall c, isLetter (env0 0 false) c || isDigit (env0 0 false) c = true -> xml_char c = true) /\
  (forall n l, over (env0 0 false) n l = []) /\ truthful knownH /\ creates knownH /\
  exists s', Parse (env0 0 false) (list ent) knownH 400 [] typed_doc = (Ret tt, s') /\ ~ no_doctype (map fst (tr s')).
Proof.
  split; [apply env0_ok; left; reflexivity|]. split; [apply letters_legal|]. split; [reflexivity|]. split; [exact known_truthful|]. split; [exact known_creates|]. exact typed_doc_accepted.
Qed.

(* Of several declarations of an attribute the first is binding (XML 1.0, 3.3):
   here it has tokens for values, and the value is reported with its spaces. *)
Theorem C69_type_refuted : exists x, x = s_ "<!DOCTYPE r [<!ATTLIST r a NMTOKENS #IMPLIED a CDATA #IMPLIED>]><r a=' x '/>" /\ forall eof, eof_ok eof ->
  accepted eof x /\ In (EStartElement (s_ "r") [] [] [] [AAttr (s_ "a") [] (s_ " x ")]) (events eof x).
Proof. eexists. split; [reflexivity|]. intros eof [->| ->]; vm_compute; intuition. Qed.
(* A default is lost because another attribute of another element is declared. *)
Theorem C69_label_refuted : exists x, x = s_ "<!DOCTYPE x [<!ATTLIST x:a b CDATA #IMPLIED><!ATTLIST x a:b CDATA 'd'>]><x/>" /\ forall eof, eof_ok eof ->
  accepted eof x /\ In (EStartElement (s_ "x") [] [] [] []) (events eof x).
Proof. eexists. split; [reflexivity|]. intros eof [->| ->]; vm_compute; intuition. Qed.

(* ---- assumptions ---- *)
Print Assumptions C68_doctype_partial.
Print Assumptions C68_group_refuted.
Print Assumptions C68_entity_refuted.
Print Assumptions C69_document_partial.
Print Assumptions C69_type_refuted.
Print Assumptions C69_label_refuted.

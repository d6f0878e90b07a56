(* A document with declarations that meets the hypotheses of the theorems of
   PropertiesDoctype.v, and inputs on which the parser hangs or reports what
   was not written. *)
From Coq Require Import Permutation.
From Verif Require Import Heap Dump TreeBuilder TreeShape Xml Tidy XmlEx.
From Verif Require Import Base Utf8 Utf8Proofs XmlSpec Encoding Scan ScanProofs Parser Effects LexProofs TextProofs DocComplete
  Legal Sample Reject Counter ParserEx Content ContentProofs Doctype DoctypeCases DoctypeNodes DoctypeKept.
From Verif Require Import Grammar.
Local Open Scope Z_scope.

Lemma hang_enum : forall eof, eof_ok eof -> hangs eof (s_ "<!DOCTYPE r [<!ATTLIST r a (x|y) 'x'>]><r/>").
Proof.
  intros eof [->| ->] n pct; do 4 (destruct n as [|n]; [destruct pct; vm_compute; reflexivity|]); destruct pct; vm_compute; reflexivity.
Qed.
Lemma wrap_tt : forall S A (m : M S A) s a s', m s = (Ret a, s') -> wrap S m s = (Ret a, s').
Proof. intros S A m s a s' Hm. unfold wrap. rewrite Hm. reflexivity. Qed.
(* a notation declaration is not read, and not passed over either *)
Lemma subset_notation : forall E S (H : handler S) w n s, inp s = s_ "<!NOTATION" ++ w -> fst (subsetLoop E S H n s) = Oof.
Proof.
  intros E S H w. induction n as [|n IH]; intros s Hs; [reflexivity|]. cbn [subsetLoop].
  set (r := s_ "!NOTATION" ++ w). assert (Hs' : inp s = 60 :: r) by exact Hs.
  assert (Hss : set_inp S (60 :: r) s = s) by (destruct s; cbn in *; subst; reflexivity).
  apply (bind_oof _ _ _ _ _ _ false s). { unfold mdone, get, done. rewrite Hs'. reflexivity. }
  apply (bind_oof _ _ _ _ _ _ 60 s). { unfold mpeek, lift, ppeek. rewrite Hs', Hss. reflexivity. }
  change (60 =? 93) with false. cbn [orb].
  apply (bind_oof _ _ _ _ _ _ false s). { unfold mskip, lift, skipBlanks. rewrite Hs'. cbn [takeW dropW]. change (isBlankCh 60) with false. cbv iota. rewrite Hss. reflexivity. }
  apply (bind_oof _ _ _ _ _ _ tt s).
  { apply wrap_tt. unfold parseMarkupDecl. rewrite Hs'. change (wrap S (parsePEReference E S H) s = (Ret tt, s)).
    apply wrap_tt, (pe_other E S H s 60 r); [auto|discriminate]. }
  apply (bind_oof _ _ _ _ _ _ tt s). { unfold wrap. rewrite (pe_other E S H s 60 r) by (auto; discriminate). reflexivity. }
  apply IH; auto.
Qed.
Lemma hang_notation : forall eof, eof_ok eof -> hangs eof (s_ "<!DOCTYPE r [<!NOTATION n SYSTEM 's'>]><r/>").
Proof.
  intros eof He n pct. do 3 (destruct n as [|n]; [destruct He as [->| ->]; destruct pct; vm_compute; reflexivity|]).
  destruct He as [->| ->]; destruct pct; unfold Parse, parseDocument; do 9 step;
    (apply bind_oof1; unfold parseDTD; do 3 step; apply bind_oof1; apply wrap_oof;
     unfold parseInternalSubset; step; change (negb (91 =? 91)) with false; cbv iota; apply bind_oof1; step; apply bind_oof1;
     apply (subset_notation _ _ _ (s_ " n SYSTEM 's'>]><r/>")); reflexivity).
Qed.

Section Ex.
Variable eof : Z.
Variable pct : bool.
Let E := env0 eof pct.

Definition ex_type : list Z := s_ "<!DOCTYPE r [<!ENTITY e 'x<b/>'><!ATTLIST r i NMTOKENS #IMPLIED k CDATA 'v'><!ELEMENT r ANY>]>".
Definition ex_i : attdef := {| ad_name := s_ "i"; ad_type := NMTOKENS; ad_default := Implied |}.
Definition ex_k : attdef := {| ad_name := s_ "k"; ad_type := CDATA; ad_default := Default (s_ "v") |}.
Definition ex_decls : list decl := [DEntity false (s_ "e") (s_ "x<b/>"); DAttlist [] (s_ "r") [ex_i; ex_k]; DElement [] (s_ "r") Any].
Definition ex_type_events : list event :=
  [EInternalSubset (s_ "r") [] []; EEntityDecl (s_ "e") InternalGeneralEntity [] [] (s_ "x<b/>");
   EAttributeDecl (s_ "r") (s_ "i") AttrNmtokens DefImplied [] []; EAttributeDecl (s_ "r") (s_ "k") AttrCDATA DefNone (s_ "v") [];
   EElementDecl (s_ "r") AnyElementType None; EExternalSubset (s_ "r") [] []].
Lemma ex_doctype : doctype E ex_type ex_decls ex_type_events.
Proof.
  refine (dt_subset E (s_ " ") [] (s_ "r") (s_ " ")
    (s_ "<!ENTITY e 'x<b/>'><!ATTLIST r i NMTOKENS #IMPLIED k CDATA 'v'><!ELEMENT r ANY>") [] ex_decls
    [EEntityDecl (s_ "e") InternalGeneralEntity [] [] (s_ "x<b/>");
     EAttributeDecl (s_ "r") (s_ "i") AttrNmtokens DefImplied [] []; EAttributeDecl (s_ "r") (s_ "k") AttrCDATA DefNone (s_ "v") [];
     EElementDecl (s_ "r") AnyElementType None] _ _ _ _ _ _).
  - discriminate.
  - lit.
  - split; [split; [left; reflexivity|nc]|discriminate].
  - lit.
  - refine (su_general E (s_ " ") (s_ "e") (s_ " ") 39 (s_ "x<b/>") (s_ "x<b/>") [] (s_ "<!ATTLIST r i NMTOKENS #IMPLIED k CDATA 'v'><!ELEMENT r ANY>") _ _
      _ _ _ _ _ _ _ _ _).
    + discriminate.
    + lit.
    + nc.
    + discriminate.
    + lit.
    + right; reflexivity.
    + do 5 (apply en_char; [reflexivity|discriminate|discriminate|discriminate|discriminate|]). constructor.
    + constructor.
    + refine (su_attlist E (s_ " ") [] (s_ "r") (s_ " ") [ex_i; ex_k] (s_ "i NMTOKENS #IMPLIED k CDATA 'v'>") (s_ "<!ELEMENT r ANY>") _ _ _ _ _ _ _ _ _).
      * discriminate.
      * lit.
      * split; [split; [left; reflexivity|nc]|discriminate].
      * discriminate.
      * lit.
      * refine (ads_more E ex_i [ex_k] (s_ "i NMTOKENS #IMPLIED") (s_ " ") (s_ "k CDATA 'v'>") _ _ _ _).
        -- refine (adt E ex_i (s_ " ") (s_ " ") (s_ "#IMPLIED") _ _ _ _ _ _ _); [discriminate|lit|discriminate|lit|nc|constructor|exact I].
        -- discriminate.
        -- lit.
        -- refine (ads_one E ex_k (s_ "k CDATA 'v'") [] _ _); [|constructor].
           refine (adt E ex_k (s_ " ") (s_ " ") (s_ "'v'") _ _ _ _ _ _ _); [discriminate|lit|discriminate|lit|nc| |left; reflexivity].
           refine (df_default 39 (s_ "v") (s_ "v") _ _); [right; reflexivity|].
           refine (al_char 39 118 [] [] _ _ _ _ _ _); try reflexivity; try discriminate. constructor.
      * refine (su_element E [] (s_ "r") Any (s_ "<!ELEMENT r ANY>") None [] [] [] _ _ _ _ _ _).
        -- split; [split; [left; reflexivity|nc]|discriminate].
        -- exact I.
        -- refine (dc [] (s_ "r") Any (s_ " ") (s_ " ") (s_ "ANY") [] _ _ _ _ _ _); [discriminate|lit|discriminate|lit|constructor|constructor].
        -- intros w. split; auto.
        -- split; auto.
        -- constructor.
  - constructor.
Qed.
Lemma ex_fine : fine ex_decls.
Proof.
  split; [|split].
  - constructor; [intros []|constructor].
  - intros n [<-|[]]. vm_compute. intuition discriminate.
  - constructor; [intros [X|[]]; discriminate|]. constructor; [intros []|constructor].
Qed.
Definition ex_text_events : list event := [ECharacters (s_ "x"); EStartElement (s_ "b") [] [] [] []; EEndElement (s_ "b") [] []].
Lemma ex_text : forall k, dcontent E ex_decls k false [] (s_ "x<b/>") ex_text_events [].
Proof.
  intros k. refine (dc_text E ex_decls k false [] (s_ "x") (s_ "x") (s_ "<b/>") (tl ex_text_events) [] _ _ _ _).
  - split; [discriminate|]. split; [lit|]. split; [notin|]. split; [notin|]. apply no_infix. reflexivity.
  - constructor; [discriminate|constructor].
  - right; left; reflexivity.
  - refine (dc_elem E ex_decls k false [] (s_ "<b/>") [] (tl ex_text_events) [] [] [] _ (dc_nil E ex_decls k false [])).
    refine (de_empty E ex_decls k false [] [] (s_ "b") [] [] [] [] _ _ _ _).
    + split; [left; reflexivity|nc].
    + constructor. constructor.
    + split; [intros ? ? ? []|intros ? ? []].
    + split; reflexivity.
Qed.
(* declarations, a normalised attribute, a default, text and an entity *)
Definition exd_src : list Z := ex_type ++ s_ "<r i=' 1  2 '>a&e;</r>".
Definition exd_events : list event :=
  ex_type_events ++ [EStartElement (s_ "r") [] [] [] [AAttr (s_ "i") [] (s_ "1 2"); ADefault (s_ "k") [] (s_ "v")]; ECharacters (s_ "a")] ++
  ex_text_events ++ [EReference (s_ "e"); EEndElement (s_ "r") [] []].
Lemma exd_document : ddocument E exd_src {| di_version := []; di_encoding := None; di_standalone := None |} ex_decls exd_events [].
Proof.
  refine (dd_plain E [] ex_type [] (s_ "<r i=' 1  2 '>a&e;</r>") [] ex_decls [] ex_type_events [] (skipn 6 exd_events) [] []
    (m_nil E) ex_doctype (m_nil E) _ (m_nil E) ex_fine _); [|discriminate].
  refine (de_full E ex_decls max_entity_depth true [] [] (s_ "r") (s_ " i=' 1  2 '") [AAttr (s_ "i") [] (s_ " 1  2 ")] [] [] (s_ "a&e;")
    (ECharacters (s_ "a") :: ex_text_events ++ [EReference (s_ "e")]) [] _ _ _ _ _ _).
  - split; [left; reflexivity|nc].
  - refine (at_attr E (s_ " ") [] (s_ "i") [] [] 39 (s_ " 1  2 ") (s_ " 1  2 ") [] [] [] _ _ _ _ _ _ _ _ _ _).
    + discriminate.
    + lit.
    + split; [left; reflexivity|nc].
    + discriminate.
    + discriminate.
    + constructor.
    + constructor.
    + right; reflexivity.
    + refine (al_blank 39 32 _ _ eq_refl _ _); [discriminate|].
      refine (al_char 39 49 _ _ _ _ _ _ _ _); try reflexivity; try discriminate.
      refine (al_blank 39 32 _ _ eq_refl _ _); [discriminate|]. refine (al_blank 39 32 _ _ eq_refl _ _); [discriminate|].
      refine (al_char 39 50 _ _ _ _ _ _ _ _); try reflexivity; try discriminate.
      refine (al_blank 39 32 _ _ eq_refl _ _); [discriminate|]. constructor.
    + constructor. constructor.
  - split; [|intros ? ? []]. intros al ap v [X|[]]. inversion X; subst. split; [reflexivity|]. split.
    + intros _. split; [reflexivity|]. right. vm_compute. discriminate.
    + vm_compute. intros [Y|[]]. discriminate Y.
  - split; reflexivity.
  - refine (dc_text E ex_decls max_entity_depth true [] (s_ "a") (s_ "a") (s_ "&e;") (ex_text_events ++ [EReference (s_ "e")]) [] _ _ _ _).
    + split; [discriminate|]. split; [lit|]. split; [notin|]. split; [notin|]. apply no_infix. reflexivity.
    + constructor; [discriminate|constructor].
    + right; right; reflexivity.
    + refine (dc_entity E ex_decls 19 true [] (s_ "e") (s_ "x<b/>") ex_text_events [] [] [] [] _ (ex_text 19) _ _ (dc_nil E ex_decls 20 true [])).
      * left; reflexivity.
      * constructor.
      * intros [].
  - discriminate.
Qed.
(* the same without the entity in the content, after a comment *)
Definition ext_src : list Z := s_ "<!--c-->" ++ ex_type ++ s_ "<r i=' 1  2 '>a</r>".
Definition ext_root : list event :=
  [EStartElement (s_ "r") [] [] [] [AAttr (s_ "i") [] (s_ "1 2"); ADefault (s_ "k") [] (s_ "v")]; ECharacters (s_ "a"); EEndElement (s_ "r") [] []].
Definition ext_events : list event := EComment (s_ "c") :: ex_type_events ++ ext_root.
Lemma ext_document : ddocument E ext_src {| di_version := []; di_encoding := None; di_standalone := None |} ex_decls ext_events [].
Proof.
  refine (dd_plain E (s_ "<!--c-->") ex_type [] (s_ "<r i=' 1  2 '>a</r>") [] ex_decls [EComment (s_ "c")] ex_type_events [] ext_root [] []
    _ ex_doctype (m_nil E) _ (m_nil E) ex_fine _); [| |discriminate].
  { refine (m_comment E (s_ "c") (s_ "c") [] [] _ _ (m_nil E)).
    - split; [lit|]. split; [apply no_infix; reflexivity|]. right. discriminate.
    - constructor; [discriminate|constructor]. }
  refine (de_full E ex_decls max_entity_depth true [] [] (s_ "r") (s_ " i=' 1  2 '") [AAttr (s_ "i") [] (s_ " 1  2 ")] [] [] (s_ "a")
    [ECharacters (s_ "a")] [] _ _ _ _ _ _).
  - split; [left; reflexivity|nc].
  - refine (at_attr E (s_ " ") [] (s_ "i") [] [] 39 (s_ " 1  2 ") (s_ " 1  2 ") [] [] [] _ _ _ _ _ _ _ _ _ _).
    + discriminate.
    + lit.
    + split; [left; reflexivity|nc].
    + discriminate.
    + discriminate.
    + constructor.
    + constructor.
    + right; reflexivity.
    + refine (al_blank 39 32 _ _ eq_refl _ _); [discriminate|].
      refine (al_char 39 49 _ _ _ _ _ _ _ _); try reflexivity; try discriminate.
      refine (al_blank 39 32 _ _ eq_refl _ _); [discriminate|]. refine (al_blank 39 32 _ _ eq_refl _ _); [discriminate|].
      refine (al_char 39 50 _ _ _ _ _ _ _ _); try reflexivity; try discriminate.
      refine (al_blank 39 32 _ _ eq_refl _ _); [discriminate|]. constructor.
    + constructor. constructor.
  - split; [|intros ? ? []]. intros al ap v [X|[]]. inversion X; subst. split; [reflexivity|]. split.
    + intros _. split; [reflexivity|]. right. vm_compute. discriminate.
    + vm_compute. intros [Y|[]]. discriminate Y.
  - split; reflexivity.
  - refine (dc_text E ex_decls max_entity_depth true [] (s_ "a") (s_ "a") [] [] [] _ _ _ (dc_nil E ex_decls max_entity_depth true [])).
    + split; [discriminate|]. split; [lit|]. split; [notin|]. split; [notin|]. apply no_infix. reflexivity.
    + constructor; [discriminate|constructor].
    + left; reflexivity.
  - discriminate.
Qed.
End Ex.

(* ---- trees ---- *)
Lemma pi_twice : exists x d dtd q r c1 c2 c3 c4, x = s_ "<!DOCTYPE r [<?p d?>]><r/>" /\ fst (parsed x) = Ret tt /\
  let h := tb_heap (snd (parsed x)) in tb_doc (snd (parsed x)) = Some d /\
  hget h d = Some c1 /\ dat c1 = DDoc [] [] StandaloneImplicitNo (Some dtd) None /\ TreeShape.path h (l_first (lk c1)) [dtd; q; r] /\
  hget h dtd = Some c2 /\ TreeShape.path h (l_first (lk c2)) [q; r] /\
  hget h q = Some c3 /\ dat c3 = DPI (s_ "p") (s_ "d") /\ hget h r = Some c4 /\ dat c4 = DElem (s_ "r") None [] None.
Proof.
  exists (s_ "<!DOCTYPE r [<?p d?>]><r/>"), 1%positive, 2%positive, 3%positive, 4%positive.
  set (x := s_ "<!DOCTYPE r [<?p d?>]><r/>"). set (h := tb_heap (snd (parsed x))). vm_compute in h.
  eexists _, _, _, _. split; [reflexivity|]. split; [vm_compute; reflexivity|]. cbv zeta. fold h.
  split; [vm_compute; reflexivity|]. split; [reflexivity|]. split; [reflexivity|].
  split; [repeat (eapply TreeShape.path_cons; [reflexivity|]); constructor|]. split; [reflexivity|].
  split; [repeat (eapply TreeShape.path_cons; [reflexivity|]); constructor|]. split; [reflexivity|]. split; [reflexivity|]. split; reflexivity.
Qed.
Lemma entity_twice : exists x d q c, x = s_ "<!DOCTYPE r [<!ENTITY e 'a'><!ENTITY e 'b'>]><r/>" /\ fst (parsed x) = Ret tt /\
  let h := tb_heap (snd (parsed x)) in tb_doc (snd (parsed x)) = Some d /\ fst (GetEntity (Some d) (s_ "e") h) = Ret (Some q) /\
  hget h q = Some c /\ dat c = Heap.DEntity (s_ "e") InternalGeneralEntity [] [] (s_ "b") (s_ "b").
Proof.
  exists (s_ "<!DOCTYPE r [<!ENTITY e 'a'><!ENTITY e 'b'>]><r/>"), 1%positive, 4%positive.
  set (x := s_ "<!DOCTYPE r [<!ENTITY e 'a'><!ENTITY e 'b'>]><r/>"). set (h := tb_heap (snd (parsed x))). vm_compute in h.
  eexists. split; [reflexivity|]. split; [vm_compute; reflexivity|]. cbv zeta. fold h.
  split; [vm_compute; reflexivity|]. split; [vm_compute; reflexivity|]. split; reflexivity.
Qed.

(* ---- a tree with declarations that is written so that it can be read ---- *)
Definition ext_tree : list xnode := [XElem (s_ "r") None [] [(s_ "i", s_ "1 2")] [XText (s_ "a")]].
Definition ext_nodes : list data :=
  [Heap.DEntity (s_ "e") InternalGeneralEntity [] [] (s_ "x<b/>") (s_ "x<b/>");
   DAttrDecl (s_ "r") (s_ "i") [] AttrNmtokens DefImplied [] []; DAttrDecl (s_ "r") (s_ "k") [] AttrCDATA DefNone (s_ "v") [];
   DElemDecl (s_ "r") [] AnyElementType None].
Lemma da_next h p c x r : hget h p = Some c -> dat c = x -> decls_at h (l_next (lk c)) r -> decls_at h (Some p) (x :: r).
Proof. intros H <-. apply da_cons, H. Qed.
Lemma ext_parsed : fst (parsed ext_src) = Ret tt /\ tb_doc (snd (parsed ext_src)) = Some 1%positive /\
  document_has (heap_of ext_src) 1%positive [] [] (sa_code None) [XComment (s_ "c")] (s_ "r") ext_nodes ext_tree /\
  Forall2 (answered (heap_of ext_src) 1%positive) (singles ex_decls) ext_nodes.
Proof.
  set (h := heap_of ext_src). vm_compute in h. split; [vm_compute; reflexivity|]. split; [vm_compute; reflexivity|]. split.
  - eexists _, 3%positive, _, _, [2%positive], [10%positive]. split; [reflexivity|]. split; [reflexivity|].
    split; [repeat (eapply TreeShape.path_cons; [reflexivity|]); constructor|]. split; [|split; [|split; [reflexivity|split; [reflexivity|]]]].
    + constructor; [|constructor]. eapply ni_comment; reflexivity.
    + constructor; [|constructor]. assert (N : nodes_at h (Some 10%positive) ext_tree) by (apply (read_nodes_ok h 60); vm_compute; reflexivity).
      inversion N; assumption.
    + unfold ext_nodes. repeat (eapply da_next; [reflexivity|reflexivity|]). constructor.
  - repeat constructor; eexists _, _; (split; [vm_compute; reflexivity|split; reflexivity]).
Qed.
Lemma ext_kept eof pct : eof_ok eof -> Forall2 (kept (env0 eof pct)) (singles ex_decls) ext_nodes.
Proof.
  intros He. set (E := env0 eof pct).
  assert (R : pname E [] (s_ "r")) by (split; [split; [left; reflexivity|nc]|discriminate]).
  constructor; [|constructor; [|constructor; [|constructor; [|constructor]]]].
  - refine (kp_entity E false (s_ "e") (s_ "x<b/>") 39 (s_ "x<b/>") _ _ _); [nc|right; reflexivity|].
    do 5 (apply en_char; [reflexivity|discriminate|discriminate|discriminate|discriminate|]). constructor.
  - refine (kp_attribute E [] (s_ "r") ex_i R _ _ _); [nc|discriminate|exact I].
  - refine (kp_attribute E [] (s_ "r") ex_k R _ _ _); [nc|discriminate|]. split; [discriminate|]. exists 39, (s_ "v").
    split; [right; reflexivity|]. split; [|reflexivity]. refine (al_char 39 118 [] [] _ _ _ _ _ _); try reflexivity; try discriminate. constructor.
  - refine (kp_element E [] (s_ "r") Any None R _ _ _); [exact I|exact I|]. exists (s_ "<!ELEMENT r ANY>"). split.
    + refine (dc [] (s_ "r") Any (s_ " ") (s_ " ") (s_ "ANY") [] _ _ _ _ _ _); [discriminate|lit|discriminate|lit|constructor|constructor].
    + intros n after Hn. refine (scan_decl E (env0_ok eof pct He) [] (s_ "r") Any (s_ "<!ELEMENT r ANY>") _ _ _ n after Hn).
      * refine (dc [] (s_ "r") Any (s_ " ") (s_ " ") (s_ "ANY") [] _ _ _ _ _ _); [discriminate|lit|discriminate|lit|constructor|constructor].
      * apply R.
      * exact I.
Qed.
Lemma ext_tidy eof pct : tidies (env0 eof pct) [] [XComment (s_ "c")] /\ tidy_document (env0 eof pct) ext_tree /\ Forall (calm ex_decls) ext_tree.
Proof.
  set (E := env0 eof pct). split; [|split; [split|]].
  - apply tds_node; [|constructor]. apply (td_comment E [] [99]).
    + split; [constructor; [reflexivity|constructor]|]. split; [apply no_infix; reflexivity|right; cbn; lia].
    + apply eol_char; [discriminate|constructor].
  - apply tds_node; [|constructor]. apply (td_elem E [] [] (s_ "r") [] []).
    + split; [left; reflexivity|nc].
    + constructor.
    + constructor; [apply (one_tidy E [] (s_ "i") (s_ "1 2"))|constructor]; try discriminate; try (split; [left; reflexivity|nc]); lit.
    + repeat constructor. intros [].
    + apply resolves_none. reflexivity.
    + apply tds_node; [apply (td_text E _ (s_ "a")); lit|constructor].
  - exists [], (s_ "r"), None, [], [(s_ "i", s_ "1 2")], [XText (s_ "a")], []. split; [reflexivity|]. split; [constructor|]. split; [constructor|].
    split; [constructor|]. intros [].
  - constructor; [|constructor]. constructor; [|constructor|constructor; [constructor|constructor]].
    constructor; [|constructor]. split; [reflexivity|]. split; [reflexivity|]. vm_compute. intuition discriminate.
Qed.
(* attributes of type ENTITIES are not written, and a default with an escaped
   markup character is not escaped again *)
Lemma entities_unwritten : let x := s_ "<!DOCTYPE r [<!ATTLIST r a ENTITIES #IMPLIED>]><r/>" in
  fst (parsed x) = Ret tt /\ written x = Fail "invalid AttributeDecl type"%string.
Proof. split; vm_compute; reflexivity. Qed.
Lemma default_unread : let x := s_ "<!DOCTYPE r [<!ATTLIST r a CDATA 'x&#60;y'>]><r/>" in
  exists t, fst (parsed x) = Ret tt /\ written x = Ret t /\ fst (parsed t) = Fail (PErr (Plain "string not closed")).
Proof.
  exists (s_ "<?xml version=""1.0""?>" ++ [10] ++ s_ "<!DOCTYPE r [" ++ [10] ++ s_ "<!ATTLIST r a CDATA ""x<y"">" ++ [10] ++ s_ "]>" ++ [10] ++ s_ "<r/>" ++ [10]).
  split; [vm_compute; reflexivity|]. split; vm_compute; reflexivity.
Qed.

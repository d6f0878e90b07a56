(* C21, termination, for documents that may have a document type declaration.
   [mild], [subset_ok] and what they are made of are in TermDtd.v; [small] and
   [modest] in Term.v. *)
From Verif Require Grammar.
From Verif Require Import Base Utf8 XmlSpec Encoding Scan ScanProofs Parser LexProofs Sample Counter ParserEx PropertiesParser DoctypeEx LooseEx Term TermDtd TermRuns TermDoc TermEx TreeBuilder TreeEntities NextCrash.
Local Open Scope Z_scope.

(* ---- C21: parsing terminates ---- *)
(* Every handler and every input that is [mild] and [subset_ok]: with as many
   steps as the length of the input and a constant for each level of entities,
   the parser stops.  The values of the literals are at most L runes long, and
   so are the contents of the entities that the handler knows; the parser may
   rely on the handler knowing no others than it was told of and had before.
   Missing: inputs with one of the constructs excluded, on which the parser
   does hang, see below. *)
Theorem C21_doctype_partial : forall E, env_ok E -> (forall c, isLetter E c || isDigit E c = true -> xml_char c = true) -> (forall n l, over E n l = []) ->
  forall S (H : handler S) (good : S -> Prop) (L : nat),
  (forall h v e, good h -> modest (mild E) L e -> good (fst (h_event H h v e))) ->
  (forall h v n, good h -> good (fst (h_getEntity H h v n)) /\
     (forall e b, snd (h_getEntity H h v n) = Answer (Some (Real e)) b -> small (mild E) L e)) ->
  (forall h, good h -> good (h_chunkEnter H h)) -> (forall h h', good h -> good h' -> good (h_chunkLeave H h h')) ->
  (forall h n e, good h -> h_docEntity H h n = Some (Some e) -> small (mild E) L e) ->
  (forall h v n, good h -> good (fst (h_getPEntity H h v n))) ->
  (forall h e v, good h -> good (h_setOrig H h e v)) ->
  (forall h l p v, good h -> good (fst (h_createAttr H h l p v)) /\ snd (h_createAttr H h l p v) <> Oof) ->
  forall bytes, (forall c rest, suffix rest bytes -> mild E (decode E c rest) /\ subset_ok E L (decode E c rest)) ->
  forall n h, good h -> (forall c rest, suffix rest bytes -> (List.length (decode E c rest) + (L + 2) * 41 < n)%nat) ->
  fst (Parse E S H n h bytes) <> Oof.
Proof. intros E OK NC OV S H good L GE GG GN GL GD. exact (Parse_doctype E OK NC OV S H good L GE GG GN GL (fun _ => GD)). Qed.
(* the constructs that [subset_ok] excludes make the parser hang; for the
   unknown item see also C21_subset_hangs_refuted *)
Theorem C21_notation_refuted : exists x, x = s_ "<!DOCTYPE r [<!NOTATION n SYSTEM 's'>]><r/>" /\ forall eof, eof_ok eof -> hangs eof x.
Proof. eexists. split; [reflexivity|exact hang_notation]. Qed.
Theorem C21_late_subset_refuted : exists x, x = s_ "<!DOCTYPE r>[x" /\ forall eof, eof_ok eof -> hangs eof x.
Proof. eexists. split; [reflexivity|exact hang_late]. Qed.
Theorem C21_attlist_refuted : exists x, x = s_ "<!DOCTYPE r [<!ATTLIST r>]><r/>" /\ forall eof, eof_ok eof -> hangs eof x.
Proof. eexists. split; [reflexivity|exact hang_attlist]. Qed.
Theorem C21_enumeration_refuted : exists x, x = s_ "<!DOCTYPE r [<!ATTLIST r a (x|y) 'x'>]><r/>" /\ forall eof, eof_ok eof -> hangs eof x.
Proof. eexists. split; [reflexivity|exact hang_enum]. Qed.

Lemma known_small : forall eof pct (s : list ent) n e b, Forall (small (mild (env0 eof pct)) 150) s ->
  match find (fun e => str_eqb (e_name e) n) s with Some e => Answer (Some (Real e)) false | None => Answer None true end = Answer (Some (Real e)) b ->
  small (mild (env0 eof pct)) 150 e.
Proof.
  intros eof pct s n e b Hs Hf. destruct (find _ s) as [e'|] eqn:Hx; inversion Hf; subst. apply find_some in Hx as [Hi _]. rewrite Forall_forall in Hs. auto.
Qed.
(* every kind of declaration; an entity that refers to itself; a reference in
   the default of an attribute *)
Example C21_doctype_ex : forall eof, eof_ok eof -> (forall n, (List.length sub_src + 152 * 41 < n)%nat -> fst (Parse (env0 eof false) _ entityH n [] sub_src) <> Oof) /\
  fst (Parse (env0 eof false) _ entityH 400 [] sub_src) = Ret tt.
Proof.
  intros eof He. split.
  - intros n Hn.
    refine (C21_doctype_partial (env0 eof false) (env0_ok eof false He) (letters_legal eof false) (fun _ _ => eq_refl) _ entityH
      (Forall (small (mild (env0 eof false)) 150)) 150 _ _ _ _ _ _ _ _ sub_src (sub_by eof false) n [] _ _).
    + intros h v e Hh Hm. destruct e; cbn [h_event entityH fst]; auto.
    + intros h v m Hh. split; [exact Hh|]. intros e b Hb. exact (known_small eof false h m e b Hh Hb).
    + auto.
    + auto.
    + discriminate.
    + auto.
    + auto.
    + intros; split; [auto|discriminate].
    + constructor.
    + intros c rest Hs. cbn [decode env0]. rewrite (sub_ascii _ Hs). apply suffix_length in Hs. lia.
  - destruct He as [->| ->]; vm_compute; reflexivity.
Qed.
(* The tree builder is such a handler, for every L: building a tree comes to an
   end, with a document, an error, or a crash. *)
Theorem C21_tree_partial : forall E, env_ok E -> (forall c, isLetter E c || isDigit E c = true -> xml_char c = true) -> (forall n l, over E n l = []) ->
  forall f L bytes, (forall c rest, suffix rest bytes -> mild E (decode E c rest) /\ subset_ok E L (decode E c rest)) ->
  forall n, (forall c rest, suffix rest bytes -> (List.length (decode E c rest) + (L + 2) * 41 < n)%nat) ->
  fst (Parse E tb (crashing f) n tb_init bytes) <> Oof.
Proof.
  intros E OK NC OV f L bytes HB n Hn.
  refine (C21_doctype_partial E OK NC OV tb (crashing f) (knows (fun c => (List.length (runes_of c) <= L)%nat /\ mild E (runes_of c))) L
    (knows_event _ f) (knows_getEntity _ f) (knows_enter _ f) (knows_leave _ f) (knows_docEntity _ f) _ (knows_setOrig _ f) _ bytes HB n tb_init (knows_init _) Hn).
  - intros h v m. exact (knows_getPEntity _ f h v m).
  - intros h l p v Hk. pose proof (knows_createAttr _ f h l p v Hk) as Hc. cbn [h_createAttr crashing treeH] in *.
    destruct (tb_createAttr f h l p v) as [h' r]. cbn [fst snd] in *. split; [exact Hc|]. destruct r; discriminate.
Qed.
Definition tree_src : str := s_ "<!DOCTYPE r [<!ELEMENT r (#PCDATA)><!-- c > --><!ENTITY g '&g;'><!ENTITY f ""a&#65;>"">
<!ATTLIST r y CDATA #FIXED ""v&f;>"" z ID #IMPLIED>]><r x=' 2 '>t</r>".
Lemma tree_ascii : forall l', suffix l' tree_src -> runes_of l' = l'.
Proof.
  intros l' Hs. eapply ascii_suffix; [|exact Hs]. apply Forall_forall. assert (X : forallb (fun c => (0 <=? c) && (c <? 128)) tree_src = true) by (vm_compute; reflexivity).
  rewrite forallb_forall in X. intros x Hx. specialize (X x Hx). lia.
Qed.
Lemma tree_ok : forall E, mild E tree_src /\ subset_ok E 150 tree_src.
Proof.
  intros E. split.
  - apply mild_by; [notin|]. apply no_infix. vm_compute. reflexivity.
  - apply (okb_ok E 150 400); [|vm_compute; reflexivity]. apply Forall_forall. assert (X : forallb Grammar.legal tree_src = true) by (vm_compute; reflexivity).
    rewrite forallb_forall in X. exact X.
Qed.
Lemma tree_by : forall eof pct c rest, suffix rest tree_src -> mild (env0 eof pct) (decode (env0 eof pct) c rest) /\ subset_ok (env0 eof pct) 150 (decode (env0 eof pct) c rest).
Proof.
  intros eof pct c rest Hs. cbn [decode env0]. rewrite (tree_ascii _ Hs). destruct (tree_ok (env0 eof pct)) as [M1 M2]. split; [eapply mild_suffix; eauto|eapply subset_suffix; eauto].
Qed.
Example C21_tree_ex : forall eof, eof_ok eof -> (forall n, (List.length tree_src + 152 * 41 < n)%nat -> fst (Parse (env0 eof false) _ (crashing 60) n tb_init tree_src) <> Oof) /\
  fst (Parse (env0 eof false) _ (crashing 60) 400 tb_init tree_src) = Ret tt.
Proof.
  intros eof He. split.
  - intros n Hn. apply (C21_tree_partial (env0 eof false) (env0_ok eof false He) (letters_legal eof false) (fun _ _ => eq_refl) 60 150 tree_src (tree_by eof false)).
    intros c rest Hs. cbn [decode env0]. rewrite (tree_ascii _ Hs). apply suffix_length in Hs. lia.
  - destruct He as [->| ->]; vm_compute; reflexivity.
Qed.

(* ---- C44: a document that crashes the tree builder ---- *)
(* No entity refers to itself: f stands for nothing, g for &f; .  Whatever the
   depth f of recursion the tree builder is given, parsing stops in a panic (in Go
   the stack overflows).  With the declarations in the other order a depth of 60
   is enough. *)
Theorem C44_document_refuted : exists src, src = s_ "<!DOCTYPE r [<!ENTITY f ''><!ENTITY g '&f;'>]><r a='&f;'/>" /\
  forall eof, eof_ok eof -> forall f, fst (Parse (env0 eof false) tb (treeH f) 100 tb_init src) = Pan.
Proof. exists crash_src. split; [reflexivity|]. intros eof He f. exact (crash_always eof f He). Qed.
Example C44_document_ex : forall eof, eof_ok eof ->
  fst (Parse (env0 eof false) tb (treeH 60) 100 tb_init (s_ "<!DOCTYPE r [<!ENTITY g '&f;'><!ENTITY f ''>]><r a='&f;'/>")) = Ret tt.
Proof. intros eof [->| ->]; vm_compute; reflexivity. Qed.

(* ---- assumptions ---- *)
Print Assumptions C21_doctype_partial.
Print Assumptions C21_notation_refuted.
Print Assumptions C21_late_subset_refuted.
Print Assumptions C21_attlist_refuted.
Print Assumptions C21_enumeration_refuted.
Print Assumptions C21_tree_partial.
Print Assumptions C44_document_refuted.

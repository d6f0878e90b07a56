(* Documents with document type declarations, well-formed and not. *)
From Verif Require Import Base Utf8 Scan ScanProofs Parser Grammar Sample Loose LooseDoc LooseDtd LooseBody.
Local Open Scope Z_scope.

(* Runs with entityH, which remembers the entities.  The second declaration of
   an element has no ')', the third no content model; the entity "half" and the
   parameter entity "none" are not declared. *)
Definition loose_dtd : str := s_ "<!-- c --><!DOCTYPE r [
<!ELEMENT r (a, (b | c)?)?><!ELEMENT a (#PCDATA|b><!ELEMENT b >
<!ENTITY e ""a&#66;""><!ATTLIST r x NMTOKEN ' 1 ' y CDATA #FIXED 'v&e;&#65;' z ( | ) #IMPLIED>
<!ENTITY half ""50%""><!ENTITY % p ""q""> %p;<!ENTITY % none ><?t d?>
]> <r>t</r>".
(* like entityH, but it does not answer with what claims to be predefined *)
Definition knownH : handler (list ent) := {|
  h_event := h_event entityH;
  h_getEntity := fun s _ n => (s, match find (fun e => str_eqb (e_name e) n && negb (e_type e =? InternalPredefinedEntity)) s with
                                  | Some e => Answer (Some (Real e)) false | None => Answer None true end);
  h_getPEntity := h_getPEntity entityH;
  h_setOrig := fun s _ _ => s; h_mixed := fun _ _ => None; h_docEntity := fun _ _ => None;
  h_createAttr := fun s _ _ _ => (s, Ret tt); h_chunkEnter := fun s => s; h_chunkLeave := fun _ s => s |}.
Lemma known_truthful : truthful knownH.
Proof.
  split; [|discriminate]. intros h v n e err Ha. cbn [knownH h_getEntity snd] in Ha.
  destruct (find (fun e => str_eqb (e_name e) n && negb (e_type e =? InternalPredefinedEntity)) h) as [e0|] eqn:Hf; inversion Ha; subst.
  apply find_some in Hf as [_ Hf]. apply andb_prop in Hf as [H1 H2]. destruct (str_eqb_spec (e_name e) n); [|discriminate]. split; [auto|]. apply Z.eqb_neq. destruct (e_type e =? InternalPredefinedEntity); [discriminate|auto].
Qed.
Definition dtd_run (x : str) := let '(o, s) := Parse (env0 0 false) (list ent) knownH 400 [] x in (o, rev (map fst (tr s))).
Lemma loose_dtd_run : match dtd_run loose_dtd with (o, evs) => o = Ret tt /\
  filter (fun e => match e with EElementDecl _ _ _ => false | _ => true end) evs =
  [ESetDocumentLocator; EStartDocument; EComment (s_ " c "); EInternalSubset (s_ "r") [] [];
   EEntityDecl (s_ "e") InternalGeneralEntity [] [] (s_ "aB");
   EAttributeDecl (s_ "r") (s_ "x") AttrNmtoken DefNone (s_ "1") []; EAttributeDecl (s_ "r") (s_ "y") AttrCDATA DefFixed (s_ "v&e;A") [];
   EAttributeDecl (s_ "r") (s_ "z") AttrEnumeration DefImplied [] [[]; []];
   EEntityDecl (s_ "p") InternalParameterEntity [] [] (s_ "q"); EProcessingInstruction (s_ "t") (s_ "d");
   EExternalSubset (s_ "r") [] []; EStartElement (s_ "r") [] [] [] [ADefault (s_ "x") [] (s_ "1"); ADefault (s_ "y") [] (s_ "v&e;A")]; ECharacters (s_ "t"); EEndElement (s_ "r") [] []; EEndDocument] end.
Proof. vm_compute. split; reflexivity. Qed.
Lemma run_shows : forall x o evs, dtd_run x = (o, evs) -> exists s, Parse (env0 0 false) (list ent) knownH 400 [] x = (o, s) /\ map fst (tr s) = rev evs.
Proof. intros x o evs Hr. unfold dtd_run in Hr. destruct (Parse _ _ _ _ _ x) as [o' s]. inversion Hr; subst. exists s. split; [auto|]. rewrite rev_involutive. auto. Qed.
Lemma loose_dtd_accepted : exists s', Parse (env0 0 false) (list ent) knownH 400 [] loose_dtd = (Ret tt, s') /\ ~ no_doctype (map fst (tr s')).
Proof.
  pose proof loose_dtd_run as Hr. destruct (dtd_run loose_dtd) as [o evs] eqn:Hd. destruct Hr as [-> Hf]. apply run_shows in Hd as (s & Hp & Ht). exists s. split; [exact Hp|]. clear Hp.
  intros Hno. apply (Hno (s_ "r") [] []). rewrite Ht. rewrite <- in_rev. match type of Hf with filter ?f _ = ?l => assert (X : In (EInternalSubset (s_ "r") [] []) l) by (cbn [In]; auto) end.
  rewrite <- Hf in X. apply filter_In in X. apply X.
Qed.
(* a declaration in which a group is not closed *)
Definition open_group : str := s_ "<!DOCTYPE r [<!ELEMENT r (#PCDATA>]><r/>".
Lemma open_group_accepted : forall eof, eof_ok eof -> accepted eof open_group.
Proof. intros eof [->| ->]; vm_compute; reflexivity. Qed.
(* the declaration of an entity that is dropped *)
Definition half_off : str := s_ "<!DOCTYPE r [<!ENTITY half '50%'>]><r/>".
Lemma half_off_events : forall eof, eof_ok eof -> accepted eof half_off /\ body eof half_off =
  [EInternalSubset (s_ "r") [] []; EExternalSubset (s_ "r") [] []; EStartElement (s_ "r") [] [] [] []; EEndElement (s_ "r") [] []].
Proof. intros eof [->| ->]; vm_compute; split; reflexivity. Qed.

(* A document under declarations: values of a and of b are tokens, c has a
   default, b is declared twice, and there are references to an entity. *)
Definition typed_doc : str := s_ "<!DOCTYPE r [<!ENTITY e ""v""><!ATTLIST r a NMTOKENS #IMPLIED c CDATA 'd'>
<!ATTLIST x b CDATA 'k' b NMTOKEN 'l'>]> <r a=' x  y '>t&e;<x b='  z'/></r><!-- c -->".
Lemma known_creates : creates knownH. Proof. intros h l p v. exists h. reflexivity. Qed.
Lemma typed_doc_run : dtd_run typed_doc = (Ret tt,
  [ESetDocumentLocator; EStartDocument; EInternalSubset (s_ "r") [] []; EEntityDecl (s_ "e") InternalGeneralEntity [] [] (s_ "v");
   EAttributeDecl (s_ "r") (s_ "a") AttrNmtokens DefImplied [] []; EAttributeDecl (s_ "r") (s_ "c") AttrCDATA DefNone (s_ "d") [];
   EAttributeDecl (s_ "x") (s_ "b") AttrCDATA DefNone (s_ "k") []; EAttributeDecl (s_ "x") (s_ "b") AttrNmtoken DefNone (s_ "l") [];
   EExternalSubset (s_ "r") [] []; EStartElement (s_ "r") [] [] [] [AAttr (s_ "a") [] (s_ "x y"); ADefault (s_ "c") [] (s_ "d")];
   ECharacters (s_ "t"); ECharacters (s_ "v"); EReference (s_ "e");
   EStartElement (s_ "x") [] [] [] [AAttr (s_ "b") [] (s_ "z"); ADefault (s_ "b") [] (s_ "k")]; EEndElement (s_ "x") [] [];
   EEndElement (s_ "r") [] []; EComment (s_ " c "); EEndDocument]).
Proof. vm_compute. reflexivity. Qed.
Lemma typed_doc_accepted : exists s', Parse (env0 0 false) (list ent) knownH 400 [] typed_doc = (Ret tt, s') /\ ~ no_doctype (map fst (tr s')).
Proof.
  pose proof (run_shows _ _ _ typed_doc_run) as (s & Hp & Ht). exists s. split; [exact Hp|]. clear Hp. intros Hno. apply (Hno (s_ "r") [] []). rewrite Ht. rewrite <- in_rev. cbn [In]. auto.
Qed.

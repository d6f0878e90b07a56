(* Final statements about the declarations of a DTD.  [opened dtd h]: the DTD
   was just made by CreateInternalSubset in a document that some history of
   tree-building calls (History.v) reached; [steps dtd h l h']: the calls l,
   declarations in the DTD or other tree-building calls, lead from h to h',
   whether they succeed or fail; [history dtd h]: opened, then steps. *)
From Verif Require Import Base Utf8 Scan Heap TreeShape TreeOps Forest ForestOps ForestAttr History TreeCalls TreeEx DtdProofs DtdHistory DtdLoop Undeclared.
Local Open Scope positive_scope.

(* a document with a comment, then the internal subset *)
Definition doc_ops : list op :=
  [ONew None (DDoc (s_ "1.0") [] StandaloneImplicitNo None None); ONew (Some 1) (DComment (s_ "c")); OChild 1 2].
Definition d0 : heap := snd (CreateInternalSubset 1 (s_ "r") [] [] (heap_of doc_ops)).
Lemma d0_opened : opened 3 d0.
Proof.
  exists (heap_of doc_ops), 1, (s_ "1.0"), [], StandaloneImplicitNo, [2], (s_ "r"), [], [].
  refine (conj _ (conj _ (conj _ (conj _ _)))).
  - apply heap_of_reach.
  - vm_compute. reflexivity.
  - kids.
  - intros x [<-|[]]. vm_compute. discriminate.
  - vm_compute. reflexivity.
Qed.
Fixpoint runs_decls (dtd : ptr) (l : list decl) (h : heap) : heap :=
  match l with [] => h | k :: l' => runs_decls dtd l' (snd (declare dtd k h)) end.
Lemma runs_steps dtd l : forall h, steps dtd h (map inl l) (runs_decls dtd l h).
Proof.
  induction l as [|k l IH]; intro h; cbn [map runs_decls]; [constructor|]. destruct (declare dtd k h) as [r h'] eqn:E.
  econstructor; [eapply st_decl; exact E|apply IH].
Qed.
Lemma d0_history l : history 3 (runs_decls 3 l d0).
Proof. exists d0, (map inl l). split; [apply d0_opened|apply runs_steps]. Qed.

(* ---- C39: entity declarations ---- *)
(* A declared entity is found as declared, whatever else is declared or done
   later, as long as no entity of the same name and kind is declared.  Missing:
   a second declaration must not win, refuted below. *)
Theorem C39_kept_partial : forall dtd h name typ pub sys ct q h1 l h2,
  history dtd h -> declare dtd (KEntity name typ pub sys ct) h = (Ret q, h1) -> steps dtd h1 l h2 ->
  (forall ty pu sy c, In (inl (KEntity name ty pu sy c)) l -> general ty <> general typ) ->
  LookupOf (general typ) dtd name h2 = (Ret (Some q), h2) /\ data_of h2 q = Some (DEntity name typ pub sys ct []).
Proof. exact entity_kept. Qed.
Theorem C39_declared : forall dtd h0 l h g name q, opened dtd h0 -> steps dtd h0 l h -> LookupOf g dtd name h = (Ret (Some q), h) ->
  exists typ pub sys ct, In (inl (KEntity name typ pub sys ct)) l /\ general typ = g /\ data_of h q = Some (DEntity name typ pub sys ct []).
Proof. exact entity_declared. Qed.
Theorem C39_second_wins_refuted : exists dtd h q1 q2 h1 h2, history dtd h /\
  declare dtd (KEntity (s_ "e") 1 [] [] (s_ "first")) h = (Ret q1, h1) /\ declare dtd (KEntity (s_ "e") 1 [] [] (s_ "second")) h1 = (Ret q2, h2) /\
  q1 <> q2 /\ fst (LookupEntity dtd (s_ "e") h1) = Ret (Some q1) /\ fst (LookupEntity dtd (s_ "e") h2) = Ret (Some q2).
Proof.
  exists 3, d0, 4, 5. eexists _, _. split; [exact (d0_history [])|]. split; [vm_compute; reflexivity|]. split; [vm_compute; reflexivity|].
  split; [discriminate|]. split; vm_compute; reflexivity.
Qed.
Definition decls1 : list decl :=
  [KEntity (s_ "e") 4 [] [] (s_ "param"); KElement (s_ "a") AnyElementType None; KElement (s_ "a") EmptyElementType None;
   KAttribute (s_ "a") (s_ "x") [] AttrCDATA 1 (s_ "v") []; KEntity (s_ "f") 1 [] [] (s_ "other")].
Example C39_ex : exists q h1, declare 3 (KEntity (s_ "e") 1 [] [] (s_ "text")) d0 = (Ret q, h1) /\ history 3 d0 /\
  steps 3 h1 (map inl decls1) (runs_decls 3 decls1 h1) /\
  (forall ty pu sy c, In (inl (KEntity (s_ "e") ty pu sy c)) (map (@inl decl op) decls1) -> general ty <> general 1) /\
  fst (LookupEntity 3 (s_ "e") (runs_decls 3 decls1 h1)) = Ret (Some q) /\ fst (LookupParameterEntity 3 (s_ "e") (runs_decls 3 decls1 h1)) = Ret (Some 5).
Proof.
  eexists _, _. split; [vm_compute; reflexivity|]. split; [exact (d0_history [])|]. split; [apply runs_steps|]. split.
  - intros ty pu sy c [X|[X|[X|[X|[X|[]]]]]]; try discriminate. injection X as <- <- <- <-. discriminate.
  - split; vm_compute; reflexivity.
Qed.

(* ---- C40: element declarations ---- *)
(* [prefix_local name]: the parts before and after the first ':'.  A declared
   element stays found by its local name and prefix with its data, by no other
   name (prefixes contain no ':'), and every redeclaration fails with the heap
   unchanged.  Missing: GetElementDesc and IsMixedElement, refuted below. *)
Theorem C40_kept_partial : forall dtd h name local prefix typ ct q h1 l h2,
  history dtd h -> declare dtd (KElement name typ ct) h = (Ret q, h1) -> prefix_local name = (prefix, local) -> steps dtd h1 l h2 ->
  LookupElement dtd local prefix h2 = (Ret (Some q), h2) /\ data_of h2 q = Some (DElemDecl local prefix typ ct) /\
  (forall n p, ~ In 58%Z p -> LookupElement dtd n p h2 = (Ret (Some q), h2) -> n = local /\ p = prefix) /\
  (forall name' typ' ct', prefix_local name' = (prefix, local) -> exists e, declare dtd (KElement name' typ' ct') h2 = (Fail e, h2)).
Proof. exact element_kept. Qed.
(* whatever is found was declared under that name *)
Theorem C40_declared : forall dtd h0 l h n p q, opened dtd h0 -> steps dtd h0 l h -> ~ In 58%Z p -> LookupElement dtd n p h = (Ret (Some q), h) ->
  exists name typ ct, In (inl (KElement name typ ct)) l /\ prefix_local name = (p, n) /\ data_of h q = Some (DElemDecl n p typ ct).
Proof. exact element_declared. Qed.
(* an element that is not found can be declared, and no other lookup changes *)
Theorem C40_new : forall dtd h name local prefix typ ct, history dtd h -> prefix_local name = (prefix, local) -> content_fits typ ct ->
  LookupElement dtd local prefix h = (Ret None, h) ->
  exists q h', declare dtd (KElement name typ ct) h = (Ret q, h') /\ parent_of h' q = Some dtd /\
    (forall n p o, ~ In 58%Z p -> (n, p) <> (local, prefix) -> LookupElement dtd n p h = (Ret o, h) -> LookupElement dtd n p h' = (Ret o, h')) /\
    (forall n p e o, LookupAttribute dtd n p e h = (Ret o, h) -> LookupAttribute dtd n p e h' = (Ret o, h')) /\
    (forall g n o, LookupOf g dtd n h = (Ret o, h) -> LookupOf g dtd n h' = (Ret o, h')).
Proof. exact element_new. Qed.
(* GetElementDesc finds no element by a plain name, whatever was declared *)
Theorem C40_desc_blind : forall dtd h n, history dtd h -> ~ In 58%Z n -> GetElementDesc dtd n h = (Ret None, h).
Proof. exact desc_blind. Qed.
Theorem C40_desc_refuted : exists d dtd h q h1 e, history dtd h /\ declare dtd (KElement (s_ "a") MixedElementType (Some (EC ctPCDATA ocOnce [] [] None None))) h = (Ret q, h1) /\
  fst (LookupElement dtd (s_ "a") [] h1) = Ret (Some q) /\ fst (GetElementDesc dtd (s_ "a") h1) = Ret None /\ fst (IsMixedElement (Some d) (s_ "a") h1) = Fail e.
Proof.
  exists 1, 3, d0. eexists _, _, _. split; [exact (d0_history [])|]. split; [vm_compute; reflexivity|]. repeat split; vm_compute; reflexivity.
Qed.
(* hence IsMixedElement always fails for a plain name; for the name it would
   find, local:prefix, it says whether the declaration is not an element model *)
Theorem C40_mixed_blind : forall dtd h d v e sa x n, history dtd h -> data_of h d = Some (DDoc v e sa (Some dtd) x) -> ~ In 58%Z n ->
  exists m, IsMixedElement (Some d) n h = (Fail m, h).
Proof. exact mixed_blind. Qed.
Theorem C40_mixed_partial : forall dtd h name local prefix typ ct q h1 l h2 d v e sa x,
  history dtd h -> declare dtd (KElement name typ ct) h = (Ret q, h1) -> prefix_local name = (prefix, local) -> steps dtd h1 l h2 ->
  data_of h2 d = Some (DDoc v e sa (Some dtd) x) ->
  IsMixedElement (Some d) (local ++ s_ ":" ++ prefix) h2 = (Ret (negb (typ =? ElementElementType)%Z), h2).
Proof. exact mixed_says. Qed.
(* found by a name that is not its own *)
Theorem C40_other_name_refuted : exists dtd h q h1, history dtd h /\ declare dtd (KElement (s_ "c:a:b") EmptyElementType None) h = (Ret q, h1) /\
  data_of h1 q = Some (DElemDecl (s_ "a:b") (s_ "c") EmptyElementType None) /\
  fst (LookupElement dtd (s_ "a") (s_ "b:c") h1) = Ret (Some q).
Proof.
  exists 3, d0. eexists _, _. split; [exact (d0_history [])|]. split; [vm_compute; reflexivity|]. split; vm_compute; reflexivity.
Qed.
Definition model1 : econt :=
  EC ctSeq ocOnce [] [] (Some (EC ctElement ocPlus (s_ "x") (s_ "p") None None)) (Some (EC ctElement ocOpt (s_ "y") [] None None)).
Example C40_ex : exists q h1, declare 3 (KElement (s_ "p:a") ElementElementType (Some model1)) d0 = (Ret q, h1) /\ history 3 d0 /\
  prefix_local (s_ "p:a") = (s_ "p", s_ "a") /\ content_fits ElementElementType (Some model1) /\ LookupElement 3 (s_ "a") (s_ "p") d0 = (Ret None, d0) /\
  steps 3 h1 (map inl decls1) (runs_decls 3 decls1 h1) /\ fst (LookupElement 3 (s_ "a") [] (runs_decls 3 decls1 h1)) = Ret (Some 6) /\
  data_of (runs_decls 3 decls1 h1) 1 = Some (DDoc (s_ "1.0") [] StandaloneImplicitNo (Some 3) None).
Proof.
  eexists _, _. split; [vm_compute; reflexivity|]. split; [exact (d0_history [])|]. split; [reflexivity|]. split; [right; reflexivity|].
  split; [vm_compute; reflexivity|]. split; [apply runs_steps|]. split; vm_compute; reflexivity.
Qed.

(* ---- C44: an entity that refers to itself, in the value of an attribute ---- *)
(* The entity e stands for  &e; .  Whatever the fuel n, setting an attribute to
   this value does not come to an end (in Go the stack overflows). *)
Definition loop_heap : heap :=
  snd (call (ONew (Some 1) (DElem (s_ "r") None [] None)) (runs_decls 3 [KEntity (s_ "e") 1 [] [] (s_ "&e;")] d0)).
Lemma loop_history : history 3 loop_heap.
Proof.
  exists d0, [inl (KEntity (s_ "e") 1 [] [] (s_ "&e;")); inr (ONew (Some 1) (DElem (s_ "r") None [] None))]. split; [apply d0_opened|].
  eapply steps_cons; [eapply st_decl, surjective_pairing|]. eapply steps_cons; [eapply st_call|apply steps_nil].
  - reflexivity.
  - exact I.
  - apply surjective_pairing.
Qed.
Theorem C44_attribute_refuted : exists dtd h x el, history dtd h /\ kind h el = Some ElementNode /\
  LookupEntity dtd (s_ "e") h = (Ret (Some x), h) /\ data_of h x = Some (DEntity (s_ "e") 1 [] [] (s_ "&e;") []) /\
  forall n, fst (SetAttribute n el (s_ "a") (s_ "&e;") h) = Oof.
Proof.
  exists 3, loop_heap, 4, 5. split; [apply loop_history|]. split; [vm_compute; reflexivity|]. split; [vm_compute; reflexivity|]. split; [vm_compute; reflexivity|].
  intro n. set (h := loop_heap). vm_compute in h.
  eapply (attribute_never 1 3 4) with (r1 := 101%Z) (name := []) (rest := []) (h := h).
  9: (repeat split; reflexivity).
  all: cycle -1. all: try reflexivity; try discriminate; try (split; reflexivity).
  repeat split; try discriminate. intros [].
Qed.

(* No entity refers to itself: f stands for nothing and g, declared after it, for
   &f; .  The reference to f takes what stands beside f in the declaration for
   its content, and setting an attribute to  &f;  does not come to an end. *)
Definition next_heap : heap :=
  snd (call (ONew (Some 1) (DElem (s_ "r") None [] None))
    (runs_decls 3 [KEntity (s_ "f") 1 [] [] []; KEntity (s_ "g") 1 [] [] (s_ "&f;")] d0)).
Lemma next_history : history 3 next_heap.
Proof.
  exists d0, [inl (KEntity (s_ "f") 1 [] [] []); inl (KEntity (s_ "g") 1 [] [] (s_ "&f;")); inr (ONew (Some 1) (DElem (s_ "r") None [] None))]. split; [apply d0_opened|].
  eapply steps_cons; [eapply st_decl, surjective_pairing|]. eapply steps_cons; [eapply st_decl, surjective_pairing|]. eapply steps_cons; [eapply st_call|apply steps_nil].
  - reflexivity.
  - exact I.
  - apply surjective_pairing.
Qed.
Theorem C44_innocent_refuted : exists dtd h x y el, history dtd h /\ kind h el = Some ElementNode /\
  LookupEntity dtd (s_ "f") h = (Ret (Some x), h) /\ data_of h x = Some (DEntity (s_ "f") 1 [] [] [] []) /\
  LookupEntity dtd (s_ "g") h = (Ret (Some y), h) /\ data_of h y = Some (DEntity (s_ "g") 1 [] [] (s_ "&f;") []) /\
  (forall nm z, LookupEntity dtd nm h = (Ret (Some z), h) -> z = x \/ z = y) /\
  forall n, fst (SetAttribute n el (s_ "a") (s_ "&f;") h) = Oof.
Proof.
  exists 3, next_heap, 4, 5, 6. split; [apply next_history|]. do 5 (split; [vm_compute; reflexivity|]). split.
  - intros nm z. set (h := next_heap). vm_compute in h. unfold h. clear h. cbv -[str_eqb].
    repeat match goal with |- context [str_eqb ?a ?b] => destruct (str_eqb a b) end; intros Hz; inversion Hz; auto.
  - intro n. set (h := next_heap). vm_compute in h.
    eapply (attribute_never2 1 3 4 5) with (r1 := 102%Z) (name := []) (rest := []) (h := h).
    11: (repeat split; reflexivity).
    all: cycle -1. all: try reflexivity; try discriminate; try (split; reflexivity).
    all: repeat split; try discriminate; try reflexivity; auto.
    all: repeat constructor.
Qed.
(* Where no entity is declared, making an attribute comes to an end for every
   value, whatever references it has, within one step for each character; nor
   does it panic.  (hok: no node beyond the next free address.) *)
Theorem C44_undeclared_partial : forall h d, hok h -> (forall nm, GetEntity (Some d) nm h = (Ret None, h)) ->
  forall name value n, (List.length (runes_of value) < n)%nat ->
  fst (CreateAttribute n (Some d) name value h) <> Oof /\ fst (CreateAttribute n (Some d) name value h) <> Pan.
Proof.
  intros h d Hok Hno name value n Hn. pose proof (attribute_ends h d n name value Hok Hno Hn) as H. unfold ends in H.
  destruct (CreateAttribute n (Some d) name value h) as [[a|e| |] h']; try contradiction H; split; discriminate.
Qed.
Example C44_undeclared_ex : let v := s_ "a&f;&#65;b&g;" in
  (forall n, (13 < n)%nat -> fst (CreateAttribute n (Some 1) (s_ "a") v d0) <> Oof) /\
  fst (CreateAttribute 14 (Some 1) (s_ "a") v d0) = Ret 4.
Proof.
  split; [|vm_compute; reflexivity]. intros n Hn. refine (proj1 (C44_undeclared_partial d0 1 _ (fun nm => eq_refl) (s_ "a") (s_ "a&f;&#65;b&g;") n _)).
  - intros p c E. change (nxt d0) with 4. unfold d0 in E. vm_compute in E. destruct p as [[[]|[]|]|[[]|[]|]|]; try discriminate E; reflexivity.
  - vm_compute. lia.
Qed.
(* The same for setting an attribute of an element whose attributes can be
   listed. *)
Theorem C44_set_partial : forall h el ce d l, hok h -> hget h el = Some ce -> owner ce = Some d -> Attributes h el = Ret l ->
  (forall nm, GetEntity (Some d) nm h = (Ret None, h)) ->
  forall name value n, (List.length (runes_of value) < n)%nat ->
  fst (SetAttribute n el name value h) <> Oof /\ fst (SetAttribute n el name value h) <> Pan.
Proof.
  intros h el ce d l Hok E Ow Ha Hno name value n Hn. pose proof (set_ends h d n name value el ce l Hok Hno Hn E Ow Ha) as H. unfold ends in H.
  destruct (SetAttribute n el name value h) as [[a|e| |] h']; try contradiction H; split; discriminate.
Qed.
Definition plain_heap : heap :=
  snd (SetAttribute 9 4 (s_ "b") (s_ "x") (snd (call (ONew (Some 1) (DElem (s_ "r") None [] None)) d0))).
Example C44_set_ex : Attributes plain_heap 4 = Ret [5] /\
  (forall n, (13 < n)%nat -> fst (SetAttribute n 4 (s_ "a") (s_ "a&f;&#65;b&g;") plain_heap) <> Oof) /\
  fst (SetAttribute 14 4 (s_ "a") (s_ "a&f;&#65;b&g;") plain_heap) = Ret tt.
Proof.
  split; [vm_compute; reflexivity|]. split; [|vm_compute; reflexivity]. intros n Hn.
  set (h := plain_heap). vm_compute in h.
  refine (proj1 (C44_set_partial h 4 _ 1 [5] _ eq_refl eq_refl eq_refl (fun nm => eq_refl) (s_ "a") (s_ "a&f;&#65;b&g;") n _)).
  - intros p c E. change (nxt h) with 7. vm_compute in E. destruct p as [[[p|p|]|[p|p|]|]|[[p|p|]|[p|p|]|]|]; try discriminate E; try (destruct p; discriminate E); reflexivity.
  - vm_compute. lia.
Qed.

(* ---- C75: making an attribute leaves the other nodes alone ---- *)
(* The attribute is a new node, and every node that was there is as it was. *)
Theorem C75_frame_partial : forall h d, hok h -> (forall nm, GetEntity (Some d) nm h = (Ret None, h)) ->
  forall name value n a h', (List.length (runes_of value) < n)%nat -> CreateAttribute n (Some d) name value h = (Ret a, h') ->
  hget h a = None /\ hget h' a <> None /\ forall p c, hget h p = Some c -> hget h' p = Some c.
Proof.
  intros h d Hok Hno name value n a h' Hn E. pose proof (attribute_ends h d n name value Hok Hno Hn) as H. unfold ends in H. rewrite E in H.
  destruct H as (K & Ha). split; [|split; [exact Ha|]].
  - apply made_at in E. subst a. destruct (hget h (nxt h)) as [c|] eqn:X; [apply Hok in X; lia|reflexivity].
  - intros p c X. rewrite (proj1 K p (Hok _ _ X)). exact X.
Qed.
Example C75_frame_ex : let v := s_ "a&f;&#65;b&g;" in exists h', CreateAttribute 14 (Some 1) (s_ "a") v d0 = (Ret 4, h') /\
  hget h' 3 = hget d0 3 /\ hget d0 4 = None /\ content h' 9 4 = Ret (s_ "aAb").
Proof. eexists. split; [vm_compute; reflexivity|]. split; [vm_compute; reflexivity|]. split; vm_compute; reflexivity. Qed.
(* With a declared entity, the node of the declaration gets children. *)
Definition used_heap : heap := runs_decls 3 [KEntity (s_ "f") 1 [] [] (s_ "x")] d0.
Lemma used_history : history 3 used_heap.
Proof.
  exists d0, [inl (KEntity (s_ "f") 1 [] [] (s_ "x"))]. split; [apply d0_opened|]. eapply steps_cons; [eapply st_decl, surjective_pairing|apply steps_nil].
Qed.
Theorem C75_entity_refuted : exists dtd h x a h' c c' k, history dtd h /\ LookupEntity dtd (s_ "f") h = (Ret (Some x), h) /\
  CreateAttribute 9 (Some 1) (s_ "a") (s_ "&f;") h = (Ret a, h') /\
  hget h x = Some c /\ l_first (lk c) = None /\ hget h' x = Some c' /\ l_first (lk c') = Some k /\ hget h k = None.
Proof.
  do 8 eexists. split; [apply used_history|]. repeat (split; [vm_compute; reflexivity|]). vm_compute. reflexivity.
Qed.

(* ---- C41: attribute declarations ---- *)
(* A registered declaration stays found for its element, local name and prefix,
   with its data; a second one for the same three fails and no node changes.
   No other three find it as long as names and prefixes have no ':', which the
   parser ensures for prefixes.  Missing: names with ':', refuted below. *)
Theorem C41_kept_partial : forall dtd h el nm pf ty df v en q h1 l h2,
  history dtd h -> declare dtd (KAttribute el nm pf ty df v en) h = (Ret q, h1) -> steps dtd h1 l h2 ->
  LookupAttribute dtd nm pf el h2 = (Ret (Some q), h2) /\ data_of h2 q = Some (DAttrDecl el nm pf ty df v en) /\
  (forall n p e, ~ In 58%Z nm -> ~ In 58%Z pf -> ~ In 58%Z n -> ~ In 58%Z p -> LookupAttribute dtd n p e h2 = (Ret (Some q), h2) -> n = nm /\ p = pf /\ e = el) /\
  (forall ty' df' v' en', exists e h3, declare dtd (KAttribute el nm pf ty' df' v' en') h2 = (Fail e, h3) /\
     forall x c, hget h2 x = Some c -> hget h3 x = Some c).
Proof. exact attribute_kept. Qed.
Theorem C41_declared_partial : forall dtd h0 l h n p e q, opened dtd h0 -> steps dtd h0 l h -> ~ In 58%Z n -> ~ In 58%Z p ->
  (forall el nm pf ty df v en, In (inl (KAttribute el nm pf ty df v en)) l -> ~ In 58%Z nm /\ ~ In 58%Z pf) ->
  LookupAttribute dtd n p e h = (Ret (Some q), h) ->
  exists ty df v en, In (inl (KAttribute e n p ty df v en)) l /\ data_of h q = Some (DAttrDecl e n p ty df v en).
Proof. exact attribute_declared. Qed.
Theorem C41_new : forall dtd h el nm pf ty df v en, history dtd h -> (1 <= ty <= 10)%Z -> LookupAttribute dtd nm pf el h = (Ret None, h) ->
  exists q h', declare dtd (KAttribute el nm pf ty df v en) h = (Ret q, h') /\ parent_of h' q = Some dtd /\
    (forall n p e o, ~ In 58%Z nm -> ~ In 58%Z pf -> ~ In 58%Z n -> ~ In 58%Z p -> (n, p, e) <> (nm, pf, el) ->
       LookupAttribute dtd n p e h = (Ret o, h) -> LookupAttribute dtd n p e h' = (Ret o, h')) /\
    (forall n p o, LookupElement dtd n p h = (Ret o, h) -> LookupElement dtd n p h' = (Ret o, h')) /\
    (forall g n o, LookupOf g dtd n h = (Ret o, h) -> LookupOf g dtd n h' = (Ret o, h')).
Proof. exact attribute_new. Qed.
(* two different attributes with one key: the second is refused, and its lookup finds the first *)
Theorem C41_collision_refuted : exists dtd h q h1 e, history dtd h /\
  declare dtd (KAttribute (s_ "e") (s_ "b:c") (s_ "a") AttrCDATA 3 [] []) h = (Ret q, h1) /\
  fst (LookupAttribute dtd (s_ "b") (s_ "c") (s_ "a:e") h1) = Ret (Some q) /\
  fst (declare dtd (KAttribute (s_ "a:e") (s_ "b") (s_ "c") AttrCDATA 3 [] []) h1) = Fail e.
Proof.
  exists 3, d0. eexists _, _, _. split; [exact (d0_history [])|]. split; [vm_compute; reflexivity|]. split; vm_compute; reflexivity.
Qed.
Definition decls2 : list decl :=
  [KAttribute (s_ "e") (s_ "n") [] AttrID 2 [] []; KAttribute (s_ "f") (s_ "n") (s_ "p") AttrCDATA 1 (s_ "v") [];
   KAttribute (s_ "e") (s_ "n") (s_ "p") AttrNmtoken 3 [] []; KElement (s_ "e") AnyElementType None].
Example C41_ex : exists q h1, declare 3 (KAttribute (s_ "e") (s_ "n") (s_ "p") AttrCDATA 3 [] []) d0 = (Ret q, h1) /\ history 3 d0 /\
  LookupAttribute 3 (s_ "n") (s_ "p") (s_ "e") d0 = (Ret None, d0) /\
  steps 3 h1 (map inl decls2) (runs_decls 3 decls2 h1) /\
  (forall el nm pf ty df v en, In (inl (KAttribute el nm pf ty df v en)) (map (@inl decl op) decls2) -> ~ In 58%Z nm /\ ~ In 58%Z pf) /\
  fst (LookupAttribute 3 (s_ "n") (s_ "p") (s_ "e") (runs_decls 3 decls2 h1)) = Ret (Some q) /\
  fst (LookupAttribute 3 (s_ "n") [] (s_ "e") (runs_decls 3 decls2 h1)) = Ret (Some 5).
Proof.
  eexists _, _. split; [vm_compute; reflexivity|]. split; [exact (d0_history [])|]. split; [vm_compute; reflexivity|]. split; [apply runs_steps|]. split.
  - intros el nm pf ty df v en [X|[X|[X|[X|[]]]]]; try discriminate; injection X as <- <- <- <- <- <- <-; vm_compute; split; intuition discriminate.
  - split; vm_compute; reflexivity.
Qed.

(* ---- C42: content models ---- *)
(* particle: type, occurrence, name, prefix, first, second.  A new particle has
   the type asked for and occurs once; it has a name exactly when it is an
   element, and name and prefix are the parts of the one given. *)
Theorem C42_named : forall name ct e, newElementContent name ct = Ret e ->
  exists l p, particle e = (ct, ocOnce, l, p, None, None) /\
  ((ct = ctElement /\ name <> [] /\ ((p = [] /\ l = name /\ ~ In 58%Z name) \/ (name = p ++ 58%Z :: l /\ ~ In 58%Z p))) \/
   (In ct [ctPCDATA; ctSeq; ctOr] /\ name = [] /\ l = [] /\ p = [])).
Proof. exact newElementContent_named. Qed.
Theorem C42_accepts : forall name ct, (exists e, newElementContent name ct = Ret e) <->
  (ct = ctElement /\ name <> []) \/ (In ct [ctPCDATA; ctSeq; ctOr] /\ name = []).
Proof. exact newElementContent_accepts. Qed.
Theorem C42_copy : forall e, copyElementContent e = e.
Proof. exact copy_id. Qed.
Example C42_ex : newElementContent (s_ "p:x") ctElement = Ret (EC ctElement ocOnce (s_ "x") (s_ "p") None None) /\
  copyElementContent model1 = model1 /\ exists e, newElementContent (s_ "x") ctSeq = Fail e.
Proof. split; [reflexivity|]. split; [reflexivity|]. eexists. reflexivity. Qed.

(* ---- assumptions ---- *)
Print Assumptions C39_kept_partial.
Print Assumptions C39_declared.
Print Assumptions C39_second_wins_refuted.
Print Assumptions C40_kept_partial.
Print Assumptions C40_declared.
Print Assumptions C40_new.
Print Assumptions C40_desc_blind.
Print Assumptions C40_desc_refuted.
Print Assumptions C40_mixed_blind.
Print Assumptions C40_mixed_partial.
Print Assumptions C40_other_name_refuted.
Print Assumptions C44_attribute_refuted.
Print Assumptions C44_innocent_refuted.
Print Assumptions C44_undeclared_partial.
Print Assumptions C44_set_partial.
Print Assumptions C75_frame_partial.
Print Assumptions C75_entity_refuted.
Print Assumptions C41_kept_partial.
Print Assumptions C41_declared_partial.
Print Assumptions C41_new.
Print Assumptions C41_collision_refuted.
Print Assumptions C42_named.
Print Assumptions C42_accepts.
Print Assumptions C42_copy.

(* Final statements about editing a document that was parsed, or built by calls.
   [edited E f X h]: the heap h results from a history of calls that begins with
   nothing or with what Parse left when it returned a document ([parsed_heap],
   Edit.v: predefined entities only, no processing instruction in the document
   type declaration); X are the
   nodes taken out of use by Replace and SetDocumentElement.  [drop X h] is h
   without X, and [without X h' u] says that u is h' without X. *)
From Verif Require XmlEx.
From Verif Require Import Base Utf8 Utf8Proofs XmlSpec Escape Scan Parser Heap TreeBuilder TreeShape TreeOps Forest ForestOps ForestAttr History TreeCalls TreeRead
  TreeReplace TreeAttrs TreeOwner Retire TreeEx Edit EditEx.
Local Open Scope positive_scope.

(* ---- C67: parsed documents can be edited ---- *)
(* Missing in all of them: documents that refer to declared entities or have a
   processing instruction in the document type declaration, nodes that were
   replaced (C66), and what C31 to C38 leave out. *)
Theorem C67_consistent_partial : forall E f, usual E -> forall X h, edited E f X h -> consistent (drop X h).
Proof. intros E f U. exact (since_consistent _ (edited_start E f U)). Qed.
Theorem C67_no_panic_partial : forall E f, usual E -> forall X h c, edited E f X h -> fit (drop X h) c ->
  exists r h' X', run c h = (r, h') /\ r <> Pan /\ r <> Oof /\ edited E f X' h' /\ (forall x, In x X -> In x X' /\ hget h' x = hget h x).
Proof. intros E f U. exact (since_total _ (edited_start E f U)). Qed.
(* Not so if the content refers to a declared entity: the node of the reference
   has the entity as its child, which is a child of the subset. *)
Theorem C67_reference_refuted : exists x, x = s_ "<!DOCTYPE r [<!ENTITY e '<b/>'>]><r>&e;</r>" /\ fst (XmlEx.parsed x) = Ret tt /\ ~ consistent (tb_heap (snd (XmlEx.parsed x))).
Proof.
  eexists. split; [reflexivity|]. split; [vm_compute; reflexivity|]. set (h := tb_heap (snd (XmlEx.parsed _))). intro C.
  destruct (hget h 7) as [c|] eqn:G; [|vm_compute in G; discriminate]. destruct (C 7 c G) as [K _].
  destruct K as (cs & c' & G' & P & _ & _ & I); [vm_compute in G; injection G as <-; reflexivity|].
  vm_compute in G'. injection G' as <-. vm_compute in P. inversion P; subst. specialize (proj1 (I 3) (or_introl eq_refl)). vm_compute. discriminate.
Qed.
(* AddChild and AddSibling: C32 *)
Theorem C67_appends_partial : forall E f, usual E -> forall X h p q cs,
  edited E f X h -> attachable (drop X h) p q -> children (drop X h) p cs ->
  kind (drop X h) p <> Some TextNode -> kind (drop X h) p <> Some CommentNode ->
  (forall l, lasto cs = Some l ->
     kind (drop X h) l <> Some DocumentNode /\ ~ (kind (drop X h) l = Some TextNode /\ kind (drop X h) q = Some TextNode)) ->
  exists h' u', AddChild p q h = (Ret tt, h') /\ without X h' u' /\ only_children (drop X h) p (cs ++ [q]) u'.
Proof. intros E f U. exact (edit_appends _ (edited_start E f U)). Qed.
Theorem C67_merges_partial : forall E f, usual E -> forall X h p q cs l s t,
  edited E f X h -> attachable (drop X h) p q -> children (drop X h) p (cs ++ [l]) ->
  text_at (drop X h) l s -> text_at (drop X h) q t ->
  exists h' u', AddChild p q h = (Ret tt, h') /\ without X h' u' /\ only_data (drop X h) l (DText (s ++ t)) u'.
Proof. intros E f U. exact (edit_merges _ (edited_start E f U)). Qed.
Theorem C67_sibling_partial : forall E f, usual E -> forall X h p q y cs,
  edited E f X h -> attachable (drop X h) p q -> children (drop X h) y cs -> In p cs -> ~ in_attr (drop X h) y ->
  kind (drop X h) p <> Some DocumentNode -> ~ (kind (drop X h) p = Some TextNode /\ kind (drop X h) q = Some TextNode) ->
  exists h' u', AddSibling p q h = (Ret tt, h') /\ without X h' u' /\ only_children (drop X h) y (cs ++ [q]) u'.
Proof. intros E f U. exact (edit_sibling _ (edited_start E f U)). Qed.
Theorem C67_sibling_merges_partial : forall E f, usual E -> forall X h p q s t,
  edited E f X h -> attachable (drop X h) p q -> text_at (drop X h) p s -> text_at (drop X h) q t ->
  exists h' u', AddSibling p q h = (Ret tt, h') /\ without X h' u' /\ only_data (drop X h) p (DText (s ++ t)) u'.
Proof. intros E f U. exact (edit_sibling_merges _ (edited_start E f U)). Qed.
(* Content, AddContent and Walk: C33, C34 *)
Theorem C67_content_partial : forall E f, usual E -> forall X h p l n,
  edited E f X h -> live (drop X h) p -> ~ in_attr (drop X h) p -> preorder (drop X h) p l ->
  plain_entities (drop X h) l -> (2 * List.length l <= n)%nat -> Content n p h = (Ret (concat (map (own h) l)), h).
Proof. intros E f U. exact (edit_content _ (edited_start E f U)). Qed.
Theorem C67_preorder_partial : forall E f, usual E -> forall X h p, edited E f X h -> live (drop X h) p -> ~ in_attr (drop X h) p ->
  exists l, preorder (drop X h) p l /\ NoDup l /\ forall x, In x l <-> ancestor (drop X h) p x.
Proof. intros E f U. exact (edit_preorder _ (edited_start E f U)). Qed.
Theorem C67_add_content_partial : forall E f, usual E -> forall X h p l b h' n,
  edited E f X h -> live (drop X h) p -> ~ in_attr (drop X h) p -> preorder (drop X h) p l ->
  plain_entities (drop X h) l -> kind (drop X h) p <> Some EntityNode -> AddContent p b h = (Ret tt, h') -> (2 * List.length l + 2 <= n)%nat ->
  exists s, Content n p h = (Ret s, h) /\ Content n p h' = (Ret (s ++ b), h').
Proof. intros E f U. exact (edit_add_content _ (edited_start E f U)). Qed.
Theorem C67_walk_partial : forall E f, usual E -> forall W (g : W -> ptr -> W * option herr) X h p l n w,
  edited E f X h -> live (drop X h) p -> ~ in_attr (drop X h) p ->
  preorder (drop X h) p l -> (2 * List.length l <= n)%nat -> Walk h g n (Some p) w = visit g l w.
Proof. intros E f U. exact (edit_walk _ (edited_start E f U)). Qed.
(* Replace and SetDocumentElement: C35, C36 *)
Theorem C67_replace_partial : forall E f, usual E -> forall X h p a o b q,
  edited E f X h -> attachable (drop X h) p q -> children (drop X h) p (a ++ o :: b) -> kind (drop X h) o <> Some DocumentNode ->
  exists h' u', Replace o q h = (Ret tt, h') /\ without X h' u' /\ substituted (drop X h) p a o b q u'.
Proof. intros E f U. exact (edit_replace _ (edited_start E f U)). Qed.
Theorem C67_root_appends_partial : forall E f, usual E -> forall X h d r cs,
  edited E f X h -> attachable (drop X h) d r -> kind (drop X h) d = Some DocumentNode ->
  kind (drop X h) r = Some ElementNode -> children (drop X h) d cs ->
  (forall x, In x cs -> kind (drop X h) x <> Some ElementNode /\ kind (drop X h) x <> Some DocumentNode) ->
  exists h' u', SetDocumentElement d r h = (Ret tt, h') /\ without X h' u' /\ only_children (drop X h) d (cs ++ [r]) u'.
Proof. intros E f U. exact (edit_root_appends _ (edited_start E f U)). Qed.
Theorem C67_root_replaces_partial : forall E f, usual E -> forall X h d r a o b,
  edited E f X h -> attachable (drop X h) d r -> kind (drop X h) d = Some DocumentNode ->
  children (drop X h) d (a ++ o :: b) -> (forall x, In x a -> kind (drop X h) x <> Some ElementNode) -> kind (drop X h) o = Some ElementNode ->
  exists h' u', SetDocumentElement d r h = (Ret tt, h') /\ without X h' u' /\ substituted (drop X h) d a o b r u'.
Proof. intros E f U. exact (edit_root_replaces _ (edited_start E f U)). Qed.
(* SetTreeDoc: C37 *)
Theorem C67_owner_partial : forall E f, usual E -> forall X h p d n,
  edited E f X h -> live (drop X h) p -> ~ in_attr (drop X h) p -> uniform (drop X h) d p -> (2 * size h <= n)%nat ->
  exists h' u', setTreeDoc n d p h = (Ret tt, h') /\ without X h' u' /\ owned (drop X h) d (within (drop X h) p) u'.
Proof. intros E f U. exact (edit_owner _ (edited_start E f U)). Qed.
(* SetAttribute and Attributes: C38 *)
Theorem C67_set_attribute_partial : forall E f, usual E -> forall X h e name v text l,
  edited E f X h -> kind (drop X h) e = Some ElementNode ->
  Forall (fun r => valid_rune r = true) v -> decodes v text -> Attributes (drop X h) e = Ret l -> (forall x, In x l -> ~ attr_named h name x) ->
  exists a h', SetAttribute (S (List.length v)) e name (utf8 v) h = (Ret tt, h') /\
    Attributes h' e = Ret (l ++ [a]) /\ attr_is h' a name (utf8 text) /\
    (forall x c, hget h x = Some c -> x <> e -> ~ In x l -> hget h' x = Some c) /\
    (forall x, In x l -> data_of h' x = data_of h x /\ forall n s, Content n x (drop X h) = (Ret s, drop X h) -> Content n x h' = (Ret s, h')).
Proof. intros E f U. exact (edit_adds _ (edited_start E f U)). Qed.
Theorem C67_duplicate_partial : forall E f, usual E -> forall X h e name v text l x,
  edited E f X h -> kind (drop X h) e = Some ElementNode ->
  Forall (fun r => valid_rune r = true) v -> decodes v text -> Attributes (drop X h) e = Ret l -> In x l -> attr_named (drop X h) name x ->
  exists h', SetAttribute (S (List.length v)) e name (utf8 v) h = (Fail "ErrDuplicateAttribute"%string, h') /\
    (forall y c, hget h y = Some c -> hget h' y = Some c) /\ Attributes h' e = Ret l.
Proof. intros E f U. exact (edit_refuses _ (edited_start E f U)). Qed.
(* A parsed document in which an element was replaced by a new one: there are
   nodes to which each of the calls applies. *)
Example C67_ex : usual E1 /\ edited E1 700 (fst after) (snd after) /\ fst after = [7; 8; 9; 10; 11] /\
  children now 1 [2] /\ children now 2 [13; 12] /\ children now 13 [14] /\
  attachable now 2 18 /\ attachable now 13 19 /\ attachable now 1 18 /\ text_at now 14 (s_ "in") /\ text_at now 19 (s_ "t") /\
  preorder now 2 [2; 13; 14; 12] /\ plain_entities now [2; 13; 14; 12] /\ live now 2 /\ ~ in_attr now 2 /\
  fst (Content 9 2 (snd after)) = Ret (s_ "in") /\
  kind now 1 = Some DocumentNode /\ kind now 2 = Some ElementNode /\ kind now 18 = Some ElementNode /\
  Attributes now 2 = Ret [3; 5] /\ attr_named now (s_ "b") 5 /\ Attributes now 13 = Ret [15] /\ attr_is now 15 (s_ "k") (s_ "v").
Proof.
  refine (conj E1_usual (conj after_edited (conj eq_refl _))).
  do 3 (split; [apply now_kids; vm_compute; reflexivity|]).
  do 3 (split; [apply attachableb_ok; vm_compute; reflexivity|]). split; [vm_compute; reflexivity|]. split; [vm_compute; reflexivity|].
  split. { change [2; 13; 14; 12] with (2 :: concat [13 :: concat [14 :: concat []]; 12 :: concat []]).
    apply (pre_node now 2 [13; 12]); [apply now_kids; vm_compute; reflexivity|]. constructor; [|constructor; [|constructor]].
    - apply (pre_node now 13 [14]); [apply now_kids; vm_compute; reflexivity|]. constructor; [|constructor].
      apply (pre_node now 14 []); [apply now_kids; vm_compute; reflexivity|constructor].
    - apply (pre_node now 12 []); [apply now_kids; vm_compute; reflexivity|constructor]. }
  split. { intros x Hx. repeat (destruct Hx as [<-|Hx]; [vm_compute; discriminate|]). destruct Hx. }
  split; [apply liveb_ok; reflexivity|]. split; [apply in_attrb_ok; vm_compute; reflexivity|].
  do 5 (split; [vm_compute; reflexivity|]). split; [eexists _, _; split; vm_compute; reflexivity|]. split; [vm_compute; reflexivity|].
  split; [eexists _, _; split; vm_compute; reflexivity|]. intros n Hn. destruct n as [|[|[|n]]]; try lia. reflexivity.
Qed.

(* a document with declarations, of which an element was replaced *)
Example C67_doctype_ex : edited E1 1500 (fst retyped) (snd retyped) /\ fst retyped = [16; 17; 18; 19] /\
  kind (drop (fst retyped) (snd retyped)) 2 = Some DTDNode /\
  children (drop (fst retyped) (snd retyped)) 1 [2; 12; 13] /\ children (drop (fst retyped) (snd retyped)) 2 [3; 4; 7; 10; 11] /\
  children (drop (fst retyped) (snd retyped)) 13 [20].
Proof.
  split; [exact retyped_edited|]. split; [reflexivity|]. split; [vm_compute; reflexivity|].
  do 2 (split; [apply retyped_kids; vm_compute; reflexivity|]). apply retyped_kids; vm_compute; reflexivity.
Qed.

(* ---- assumptions ---- *)
Print Assumptions C67_consistent_partial.
Print Assumptions C67_no_panic_partial.
Print Assumptions C67_reference_refuted.
Print Assumptions C67_appends_partial.
Print Assumptions C67_merges_partial.
Print Assumptions C67_sibling_partial.
Print Assumptions C67_sibling_merges_partial.
Print Assumptions C67_content_partial.
Print Assumptions C67_preorder_partial.
Print Assumptions C67_add_content_partial.
Print Assumptions C67_walk_partial.
Print Assumptions C67_replace_partial.
Print Assumptions C67_root_appends_partial.
Print Assumptions C67_root_replaces_partial.
Print Assumptions C67_owner_partial.
Print Assumptions C67_set_attribute_partial.
Print Assumptions C67_duplicate_partial.

(* Final statements about the node tree.  [reach h]: the heap h results from
   some history of calls that create nodes, attach loose nodes (AddChild,
   AddSibling), add content and set attributes (History.v).  Pointers stand for
   nodes; fuel n is any bound as large as stated. *)
From Verif Require Import Base Utf8 Utf8Proofs XmlSpec Escape Scan Heap TreeShape TreeOps Forest ForestOps ForestAttr History TreeCalls TreeRead
  TreeReplace TreeAttrs TreeOwner TreeEx.
Local Open Scope positive_scope.

(* ---- C31: links stay consistent ---- *)
(* [consistent]: every node but attributes has one list of children, read the
   same from FirstChild forwards, from LastChild backwards and by Parent, and
   no node is its own ancestor.  Missing: attributes, refuted below. *)
Theorem C31_consistent_partial : forall h, reach h -> consistent h.
Proof. exact reach_consistent. Qed.
Theorem C31_no_panic : forall h o, reach h -> allowed h o -> exists r h', call o h = (r, h') /\ r <> Pan /\ r <> Oof.
Proof. exact reach_total. Qed.
(* no node is in two lists of children *)
Theorem C31_one_list : forall h p q cs ds x, children h p cs -> children h q ds -> In x cs -> In x ds -> p = q.
Proof.
  intros h p q cs ds x (c & _ & _ & _ & _ & A) (d & _ & _ & _ & _ & B) Hc Hd. apply A in Hc. apply B in Hd. congruence.
Qed.
(* an attribute with a value has a first child and no last child *)
Theorem C31_attribute_refuted : exists h a k c, reach h /\ hget h a = Some c /\ l_first (lk c) = Some k /\ l_last (lk c) = None.
Proof. exists hx, 7, 8. eexists. split; [apply hx_reach|]. vm_compute. auto. Qed.
(* Go on, and the old value is lost: AddChild on an attribute replaces it *)
Theorem C31_attribute_child_refuted : exists h a q, reach h /\ loose h q /\ fst (Content 9 a h) = Ret (s_ "v") /\
  fst (AddChild a q h) = Ret tt /\ fst (Content 9 a (snd (AddChild a q h))) = Ret (s_ "t").
Proof. exists hx, 7, 12. split; [apply hx_reach|]. split; [apply looseb_ok; reflexivity|]. vm_compute. auto. Qed.
Example C31_ex : reach hx /\ children hx 1 [2] /\ children hx 2 [3; 4; 6] /\ children hx 4 [5] /\ children hx 11 [13] /\
  allowed hx (OChild 2 11) /\ allowed hx (OSibling 3 11) /\ allowed hx (OContent 6 (s_ "q")) /\ allowed hx (OSet 11 (s_ "a") (s_ "b")).
Proof.
  refine (conj hx_reach (conj _ (conj _ (conj _ (conj _ (conj _ (conj _ (conj _ _)))))))); try kids;
    apply allowedb_ok; vm_compute; reflexivity.
Qed.

(* ---- C32: AddChild appends, and nothing else changes ---- *)
(* [only_children h p cs h']: no data, owner, attribute or child list differs,
   except that the children of p are cs; [only_data h l d h']: only the data of
   l differs.  Missing: attributes as parents (refuted above) and a last child
   that is a Document, where the call fails (below). *)
Theorem C32_appends_partial : forall h p q cs,
  reach h -> attachable h p q -> children h p cs ->
  kind h p <> Some TextNode -> kind h p <> Some CommentNode ->
  (forall l, lasto cs = Some l ->
     kind h l <> Some DocumentNode /\ ~ (kind h l = Some TextNode /\ kind h q = Some TextNode)) ->
  exists h', AddChild p q h = (Ret tt, h') /\ only_children h p (cs ++ [q]) h'.
Proof. intros; eapply AddChild_appends; eauto using reach_forest. Qed.
Theorem C32_text_merges : forall h p q cs l s t,
  reach h -> attachable h p q -> children h p (cs ++ [l]) -> text_at h l s -> text_at h q t ->
  exists h', AddChild p q h = (Ret tt, h') /\ only_data h l (DText (s ++ t)) h'.
Proof. intros; eapply AddChild_merges; eauto using reach_forest. Qed.
(* text and comment nodes take no children: they absorb their own kind and
   refuse any other, changing nothing *)
Theorem C32_leaf : forall h p q,
  reach h -> attachable h p q -> kind h p = Some TextNode \/ kind h p = Some CommentNode ->
  (forall s t, text_at h p s -> text_at h q t ->
     exists h', AddChild p q h = (Ret tt, h') /\ only_data h p (DText (s ++ t)) h') /\
  (forall s t, comment_at h p s -> comment_at h q t ->
     exists h', AddChild p q h = (Ret tt, h') /\ only_data h p (DComment (s ++ t)) h') /\
  (kind h p <> kind h q -> exists e, AddChild p q h = (Fail e, h)).
Proof. intros; eapply AddChild_leaf; eauto using reach_forest. Qed.
(* AddSibling appends at the end of the list the node is in *)
Theorem C32_sibling_appends_partial : forall h p q y cs,
  reach h -> attachable h p q -> children h y cs -> In p cs -> ~ in_attr h y ->
  kind h p <> Some DocumentNode -> ~ (kind h p = Some TextNode /\ kind h q = Some TextNode) ->
  exists h', AddSibling p q h = (Ret tt, h') /\ only_children h y (cs ++ [q]) h'.
Proof. intros; eapply AddSibling_appends; eauto using reach_forest. Qed.
Theorem C32_sibling_merges : forall h p q s t,
  reach h -> attachable h p q -> text_at h p s -> text_at h q t ->
  exists h', AddSibling p q h = (Ret tt, h') /\ only_data h p (DText (s ++ t)) h'.
Proof. intros; eapply AddSibling_merges; eauto using reach_forest. Qed.
Definition h_doc2 : heap := heap_of [ONew None (el (s_ "e")); ONew None doc0; OChild 1 2; ONew None (el (s_ "f"))].
(* after a Document (a node no other may follow) nothing is appended: the call
   fails and changes nothing *)
Theorem C32_after_document : forall h p q cs l,
  children h p (cs ++ [l]) -> kind h l = Some DocumentNode -> kind h p <> Some TextNode -> kind h p <> Some CommentNode ->
  exists e, AddChild p q h = (Fail e, h).
Proof. exact AddChild_after_document. Qed.
Example C32_ex : reach hx /\ attachable hx 2 11 /\ children hx 2 [3; 4; 6] /\ kind hx 6 = Some CommentNode /\
  attachable hx 4 12 /\ children hx 4 ([] ++ [5]) /\ text_at hx 5 (s_ "xy") /\ text_at hx 12 (s_ "t") /\
  attachable hx 6 14 /\ comment_at hx 6 (s_ "c") /\ comment_at hx 14 (s_ "d") /\
  children h_doc2 1 ([] ++ [2]) /\ kind h_doc2 2 = Some DocumentNode.
Proof.
  refine (conj hx_reach _). repeat (split; [first [kids|apply attachableb_ok; reflexivity|reflexivity]|]). reflexivity.
Qed.

(* ---- C33: Content ---- *)
(* [preorder h p l]: l is p and its descendants in document order.  [own h x]:
   the text x holds itself (text, comment, entity).  Missing: attributes (C31),
   entities with children, resolved entity references (refuted below). *)
Theorem C33_concat_partial : forall h p l n,
  reach h -> live h p -> ~ in_attr h p -> preorder h p l -> plain_entities h l -> (2 * List.length l <= n)%nat ->
  Content n p h = (Ret (concat (map (own h) l)), h).
Proof. intros; eapply Content_concat; eauto using reach_forest. Qed.
Theorem C33_preorder_exists : forall h p, reach h -> live h p -> ~ in_attr h p -> exists l, preorder h p l.
Proof. intros; eapply reach_preorder; eauto using reach_forest. Qed.
Theorem C33_add_content_partial : forall h p l b h' n,
  reach h -> live h p -> ~ in_attr h p -> preorder h p l -> plain_entities h l -> kind h p <> Some EntityNode ->
  AddContent p b h = (Ret tt, h') -> (2 * List.length l + 2 <= n)%nat ->
  exists s, Content n p h = (Ret s, h) /\ Content n p h' = (Ret (s ++ b), h').
Proof. intros; eapply AddContent_extends; eauto using reach_forest. Qed.
(* content added to an entity is not part of its Content *)
Theorem C33_entity_refuted : exists h p, reach h /\ live h p /\ ~ in_attr h p /\
  fst (AddContent p (s_ "more") h) = Ret tt /\ fst (Content 9 p h) = fst (Content 9 p (snd (AddContent p (s_ "more") h))).
Proof.
  exists (heap_of [ONew None (DEntity (s_ "e") 1 [] [] (s_ "text") [])]), 1. split; [apply heap_of_reach|].
  split; [apply liveb_ok; reflexivity|]. split; [apply in_attrb_ok; reflexivity|]. vm_compute. auto.
Qed.
(* a document with an internal subset declaring a = 1 and b = 2, and a
   reference to a: its Content is that of both entities *)
Definition two_entities : HM ptr :=
  d <- CreateDocument ;; i <- CreateInternalSubset d (s_ "r") [] [] ;;
  x <- AddEntity i (s_ "a") 1 [] [] (s_ "1") ;; y <- AddEntity i (s_ "b") 1 [] [] (s_ "2") ;;
  CreateReference (Some d) (s_ "a").
Theorem C33_reference_refuted : exists r h, two_entities empty_heap = (Ret r, h) /\ kind h r = Some EntityRefNode /\
  data_of h r = Some (DRef (s_ "a")) /\ fst (Content 9 r h) = Ret (s_ "12").
Proof. eexists _, _. split; [vm_compute; reflexivity|]. vm_compute. auto. Qed.
Example C33_ex : preorder hx 1 [1; 2; 3; 4; 5; 6] /\ plain_entities hx [1; 2; 3; 4; 5; 6] /\ live hx 1 /\ ~ in_attr hx 1 /\
  concat (map (own hx) [1; 2; 3; 4; 5; 6]) = s_ "axyc" /\ fst (AddContent 2 (s_ "more") hx) = Ret tt.
Proof.
  split. { change [1; 2; 3; 4; 5; 6] with (1 :: concat [2 :: concat [3 :: concat []; 4 :: concat [5 :: concat []]; 6 :: concat []]]). pre. }
  split. { intros x Hx. repeat (destruct Hx as [<-|Hx]; [vm_compute; discriminate|]). destruct Hx. }
  split; [apply liveb_ok; reflexivity|]. split; [apply in_attrb_ok; reflexivity|]. split; vm_compute; reflexivity.
Qed.

(* ---- C34: Walk ---- *)
(* [visit f l w] calls f on the nodes of l in turn until it answers an error *)
Theorem C34_visits_partial : forall W (f : W -> ptr -> W * option herr) h p l n w,
  reach h -> live h p -> ~ in_attr h p -> preorder h p l -> (2 * List.length l <= n)%nat ->
  Walk h f n (Some p) w = visit f l w.
Proof. intros; eapply Walk_visits; eauto using reach_forest. Qed.
(* that list has every descendant exactly once *)
Theorem C34_once : forall h p l, reach h -> live h p -> ~ in_attr h p -> preorder h p l ->
  NoDup l /\ forall x, In x l <-> ancestor h p x.
Proof. intros; eapply preorder_exact; eauto using reach_forest. Qed.
Theorem C34_nil : forall W (f : W -> ptr -> W * option herr) h n w, exists e, Walk h f n None w = (Fail e, w).
Proof. intros. eexists. reflexivity. Qed.
(* Missing: resolved references, where Walk leaves the subtree *)
Theorem C34_reference_refuted : exists r h x, two_entities empty_heap = (Ret r, h) /\
  Walk h (fun w y => (w ++ [y], None)) 9 (Some r) [] = (Ret tt, [r; 3; x]) /\ parent_of h x = Some 2 /\ data_of h r = Some (DRef (s_ "a")) /\
  data_of h x = Some (DEntity (s_ "b") 1 [] [] (s_ "2") []).
Proof. eexists _, _, _. split; [vm_compute; reflexivity|]. vm_compute. auto. Qed.
Example C34_ex : Walk hx (fun w y => (w ++ [y], if Pos.eqb y 4 then Some "stop"%string else None)) 12 (Some 1) [] = (Fail "stop"%string, [1; 2; 3; 4]).
Proof. reflexivity. Qed.

(* ---- C35: Replace ---- *)
(* [substituted h p a o b q h']: the sibling list of p was a ++ o :: b and is
   a ++ q :: b in both directions; o keeps its own links; all other data,
   owners, child lists and attributes stay. *)
Theorem C35_in_place : forall h p a o b q,
  reach h -> attachable h p q -> children h p (a ++ o :: b) -> kind h o <> Some DocumentNode ->
  exists h', Replace o q h = (Ret tt, h') /\ substituted h p a o b q h'.
Proof. intros; eapply Replace_substitutes; eauto using reach_forest. Qed.
(* Document.Replace is not implemented *)
Theorem C35_document_refuted : exists h p o q, reach h /\ attachable h p q /\ children h p [o] /\ fst (Replace o q h) = Pan.
Proof.
  exists h_doc2, 1, 2, 3. split; [apply heap_of_reach|]. split; [apply attachableb_ok; reflexivity|]. split; [kids|]. reflexivity.
Qed.
Example C35_ex : reach hx /\ attachable hx 2 11 /\ children hx 2 ([] ++ 3 :: [4; 6]) /\ children hx 2 ([3] ++ 4 :: [6]) /\
  children hx 2 ([3; 4] ++ 6 :: []) /\ children hx 4 ([] ++ 5 :: []) /\ attachable hx 4 11 /\ kind hx 4 <> Some DocumentNode.
Proof.
  refine (conj hx_reach _). repeat (split; [first [kids|apply attachableb_ok; reflexivity|reflexivity]|]). vm_compute. discriminate.
Qed.

(* ---- C36: SetDocumentElement ---- *)
Theorem C36_appends_partial : forall h d r cs,
  reach h -> attachable h d r -> kind h d = Some DocumentNode -> kind h r = Some ElementNode -> children h d cs ->
  (forall x, In x cs -> kind h x <> Some ElementNode /\ kind h x <> Some DocumentNode) ->
  exists h', SetDocumentElement d r h = (Ret tt, h') /\ only_children h d (cs ++ [r]) h'.
Proof. intros; eapply SetDocumentElement_appends; eauto using reach_forest. Qed.
Theorem C36_replaces_partial : forall h d r a o b,
  reach h -> attachable h d r -> kind h d = Some DocumentNode -> children h d (a ++ o :: b) ->
  (forall x, In x a -> kind h x <> Some ElementNode) -> kind h o = Some ElementNode ->
  exists h', SetDocumentElement d r h = (Ret tt, h') /\ substituted h d a o b r h'.
Proof. intros; eapply SetDocumentElement_replaces; eauto using reach_forest. Qed.
(* Missing: a second top-level element stays, so the root is not the only one *)
Definition h_roots : heap := heap_of [ONew None doc0; ONew None (el (s_ "a")); OChild 1 2; ONew None (el (s_ "b")); OChild 1 3; ONew None (el (s_ "c"))].
Theorem C36_two_roots_refuted : exists h d r x, reach h /\ attachable h d r /\ kind h d = Some DocumentNode /\ kind h r = Some ElementNode /\
  fst (SetDocumentElement d r h) = Ret tt /\ sibling_list (snd (SetDocumentElement d r h)) d [r; x] /\ kind h x = Some ElementNode /\ x <> r.
Proof.
  exists h_roots, 1, 4, 3. split; [apply heap_of_reach|]. split; [apply attachableb_ok; reflexivity|].
  split; [reflexivity|]. split; [reflexivity|]. split; [vm_compute; reflexivity|]. split; [|split; [reflexivity|discriminate]].
  eexists. split; [vm_compute; reflexivity|]. cbn. split; [apply pathb_ok; vm_compute; reflexivity|]. split.
  { repeat (econstructor; [vm_compute; reflexivity|]; cbn). constructor. }
  split; [repeat constructor; cbn; intuition discriminate|].
  intros x Hx. repeat (destruct Hx as [<-|Hx]; [reflexivity|]). destruct Hx.
Qed.
Definition h_prolog : heap :=
  heap_of [ONew None doc0; ONew None (DComment (s_ "one")); OChild 1 2; ONew None (el (s_ "a")); OChild 1 3; ONew None (DComment (s_ "two")); OChild 1 4;
           ONew None (el (s_ "n"))].
Example C36_ex : reach h_prolog /\ attachable h_prolog 1 5 /\ children h_prolog 1 ([2] ++ 3 :: [4]) /\ kind h_prolog 2 = Some CommentNode /\
  kind h_prolog 3 = Some ElementNode /\ kind h_prolog 1 = Some DocumentNode /\ kind h_prolog 5 = Some ElementNode.
Proof.
  split; [apply heap_of_reach|]. repeat (split; [first [kids|apply attachableb_ok; reflexivity|reflexivity]|]). reflexivity.
Qed.

(* ---- C37: SetTreeDoc ---- *)
(* [within h p x]: x is p, a descendant of p, an attribute of one, or part of
   such an attribute's value.  [owned h d S h']: exactly the nodes of S get the
   owner d, nothing else changes.  Missing: a node that already has the owner
   while something below it does not, where the call stops early (refuted). *)
Theorem C37_subtree_partial : forall h p d n,
  reach h -> live h p -> ~ in_attr h p -> uniform h d p -> (2 * size h <= n)%nat ->
  exists h', setTreeDoc n d p h = (Ret tt, h') /\ owned h d (within h p) h' /\ consistent h'.
Proof. intros; eapply SetTreeDoc_owns; eauto using reach_forest. Qed.
Theorem C37_stops_early_refuted : exists h p d x, reach h /\ live h p /\ ~ in_attr h p /\ within h p x /\
  fst (setTreeDoc (2 * size h) (Some d) p h) = Ret tt /\ option_map owner (hget (snd (setTreeDoc (2 * size h) (Some d) p h)) x) = Some None.
Proof.
  exists hx, 4, 1, 5. split; [apply hx_reach|]. split; [apply liveb_ok; reflexivity|]. split; [apply in_attrb_ok; reflexivity|].
  split; [apply w_node; eapply anc_up; [vm_compute; reflexivity|reflexivity|constructor]|]. vm_compute. auto.
Qed.
Example C37_ex : reach hx /\ live hx 11 /\ ~ in_attr hx 11 /\ uniform hx (Some 1) 11 /\ within hx 11 13 /\ within hx 2 8 /\ within hx 2 9.
Proof.
  refine (conj hx_reach _). split; [apply liveb_ok; reflexivity|]. split; [apply in_attrb_ok; reflexivity|]. split.
  - intros y x Hy (c & E & O) _.
    assert (P : preorder hx 11 (11 :: concat [13 :: concat []])) by pre.
    destruct (preorder_exact _ _ _ (reach_forest _ hx_reach) (liveb_ok hx 11 eq_refl) (in_attrb_ok hx 11 eq_refl) P) as [_ X].
    apply X in Hy. destruct Hy as [<-|[<-|[]]]; vm_compute in E; injection E as <-; discriminate.
  - assert (A : forall a, (a = 7 \/ a = 9) -> has_attr hx 4 a).
    { intros a Ha. eexists _, _, _, _, _, [7; 9]. split; [vm_compute; reflexivity|]. split; [reflexivity|].
      split; [apply pathb_ok; vm_compute; reflexivity|]. destruct Ha as [->| ->]; cbn; tauto. }
    assert (B : ancestor hx 2 4) by (eapply anc_up; [vm_compute; reflexivity|reflexivity|constructor]).
    split; [apply w_node; eapply anc_up; [vm_compute; reflexivity|reflexivity|constructor]|].
    split; [eapply w_value; [exact B|apply A; left; reflexivity|reflexivity]|eapply w_attr; [exact B|apply A; right; reflexivity]].
Qed.

(* ---- C38: SetAttribute and Attributes ---- *)
(* The value is valid UTF-8 (given by its runes v) in which '&' begins a
   character reference; [text] is what it says. *)
Theorem C38_adds_partial : forall h e name v text l,
  reach h -> kind h e = Some ElementNode -> Forall (fun r => valid_rune r = true) v -> decodes v text ->
  Attributes h e = Ret l -> (forall x, In x l -> ~ attr_named h name x) ->
  exists a h', SetAttribute (S (List.length v)) e name (utf8 v) h = (Ret tt, h') /\
    Attributes h' e = Ret (l ++ [a]) /\ attr_is h' a name (utf8 text) /\
    (forall x nm df, In x l -> data_of h x = Some (DAttr nm df) -> data_of h' x = Some (DAttr nm df) /\
       forall n, fst (Content n x h') = fst (Content n x h)) /\
    (forall x c, hget h x = Some c -> x <> e -> ~ In x l -> hget h' x = Some c) /\
    (forall c, hget h e = Some c -> exists c', hget h' e = Some c' /\ lk c' = lk c /\ owner c' = owner c /\
       exists nm ns defs p p', dat c = DElem nm ns defs p /\ dat c' = DElem nm ns defs p').
Proof. intros; eapply SetAttribute_adds; eauto using reach_forest. Qed.
Theorem C38_duplicate_refused : forall h e name v text l x,
  reach h -> kind h e = Some ElementNode -> Forall (fun r => valid_rune r = true) v -> decodes v text ->
  Attributes h e = Ret l -> In x l -> attr_named h name x ->
  exists h', SetAttribute (S (List.length v)) e name (utf8 v) h = (Fail "ErrDuplicateAttribute"%string, h') /\
    (forall y c, hget h y = Some c -> hget h' y = Some c) /\ Attributes h' e = Ret l.
Proof. intros; eapply SetAttribute_refuses; eauto using reach_forest. Qed.
(* Missing: a value that is not UTF-8 is not stored as given *)
Theorem C38_invalid_utf8_refuted : exists h e a v, reach h /\ kind h e = Some ElementNode /\ ~ In 38%Z v /\
  fst (SetAttribute 9 e (s_ "z") v h) = Ret tt /\ Attributes (snd (SetAttribute 9 e (s_ "z") v h)) e = Ret [7; 9; a] /\
  exists w, fst (Content 9 a (snd (SetAttribute 9 e (s_ "z") v h))) = Ret w /\ w <> v.
Proof.
  exists hx, 4, 15, [255%Z]. split; [apply hx_reach|]. split; [reflexivity|]. split; [cbn; intuition discriminate|].
  split; [vm_compute; reflexivity|]. split; [vm_compute; reflexivity|]. eexists. split; [vm_compute; reflexivity|discriminate].
Qed.
(* nor is a reference to a predefined entity resolved: it is lost, while "AT&T"
   is refused *)
Theorem C38_predefined_refuted : exists h e a h', reach h /\ kind h e = Some ElementNode /\
  SetAttribute 9 e (s_ "z") (s_ "a&lt;b") h = (Ret tt, h') /\ Attributes h' e = Ret [7; 9; a] /\ fst (Content 9 a h') = Ret (s_ "ab") /\
  exists m, fst (SetAttribute 9 e (s_ "z") (s_ "AT&T") h) = Fail m.
Proof.
  exists hx, 4, 15. eexists. split; [apply hx_reach|]. split; [reflexivity|]. split; [vm_compute; reflexivity|]. split; [vm_compute; reflexivity|].
  split; [vm_compute; reflexivity|]. eexists. vm_compute. reflexivity.
Qed.
Example C38_ex : reach hx /\ kind hx 4 = Some ElementNode /\ Attributes hx 4 = Ret [7; 9] /\ attr_named hx (s_ "id") 7 /\
  attr_is hx 9 (s_ "k") (s_ "w") /\
  decodes (s_ "a&#x41;&#38;b") (s_ "aA&b") /\ (forall x, In x [7; 9] -> ~ attr_named hx (s_ "new") x).
Proof.
  refine (conj hx_reach (conj eq_refl (conj eq_refl _))).
  split; [eexists _, _; split; vm_compute; reflexivity|]. split.
  - split; [eexists _, _; split; vm_compute; reflexivity|]. intros n Hn. destruct n as [|[|[|n]]]; try lia. reflexivity.
  - split; [apply dec_char; [discriminate|]; eapply dec_ref; [vm_compute; reflexivity|]; eapply dec_ref; [vm_compute; reflexivity|];
            apply dec_char; [discriminate|]; apply dec_nil|].
    intros x Hx (c & df & E & D). repeat (destruct Hx as [<-|Hx]; [vm_compute in E; injection E as <-; discriminate|]). destruct Hx.
Qed.

(* ---- assumptions ---- *)
Print Assumptions C31_consistent_partial.
Print Assumptions C31_no_panic.
Print Assumptions C31_one_list.
Print Assumptions C31_attribute_refuted.
Print Assumptions C31_attribute_child_refuted.
Print Assumptions C32_appends_partial.
Print Assumptions C32_text_merges.
Print Assumptions C32_leaf.
Print Assumptions C32_sibling_appends_partial.
Print Assumptions C32_sibling_merges.
Print Assumptions C32_after_document.
Print Assumptions C33_concat_partial.
Print Assumptions C33_preorder_exists.
Print Assumptions C33_add_content_partial.
Print Assumptions C33_entity_refuted.
Print Assumptions C33_reference_refuted.
Print Assumptions C34_visits_partial.
Print Assumptions C34_once.
Print Assumptions C34_nil.
Print Assumptions C34_reference_refuted.
Print Assumptions C35_in_place.
Print Assumptions C35_document_refuted.
Print Assumptions C36_appends_partial.
Print Assumptions C36_replaces_partial.
Print Assumptions C36_two_roots_refuted.
Print Assumptions C37_subtree_partial.
Print Assumptions C37_stops_early_refuted.
Print Assumptions C38_adds_partial.
Print Assumptions C38_duplicate_refused.
Print Assumptions C38_invalid_utf8_refuted.
Print Assumptions C38_predefined_refuted.

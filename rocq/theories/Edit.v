(* Editing a document that was parsed, or built by calls, also after nodes of it
   were replaced: single calls do what TreeCalls.v, TreeRead.v, TreeReplace.v,
   TreeAttrs.v and TreeOwner.v say of them. *)
From Coq Require Import FMapPositive Permutation.
From Verif Require Import Base Utf8 Utf8Proofs XmlSpec Escape Scan ScanProofs Parser LexProofs NoPanic Heap TreeBuilder TreeShape TreeOps Forest ForestOps ForestAdd
  ForestAttr History TreeCalls TreeRead TreeReplace TreeAttrs TreeOwner Retire TreeSafe TreeSafeDtd TreeSafeDoctype.

(* ---- the specification ---- *)

(* what is assumed of the environment *)
Definition usual (E : env) : Prop :=
  env_ok E /\ (forall c, isLetter E c || isDigit E c = true -> xml_char c = true) /\ (forall n l, over E n l = []).
(* h is what Parse left when it returned the document; [fitting] is in
   TreeSafeDoctype.v, f is the fuel of the tree builder *)
Definition parsed_heap (E : env) (f : nat) (h : heap) : Prop := exists bytes n s,
  (forall c rest, suffix rest bytes -> fitting E f (decode E c rest)) /\
  (forall a r, bytes = a ++ s_ "<?xml" ++ r -> late_percent bytes) /\
  Parse E tb (treeH f) n tb_init bytes = (Ret tt, s) /\ h = tb_heap (hs s).
(* histories that begin with nothing or with a parsed document *)
Definition edited (E : env) (f : nat) : list ptr -> heap -> Prop := since (fun h => h = empty_heap \/ parsed_heap E f h).
(* u is h without the nodes of X *)
Definition without (X : list ptr) (h u : heap) : Prop :=
  forall x, (In x X -> hget u x = None) /\ (~ In x X -> hget u x = hget h x).

(* ---- proofs ---- *)
Lemma edited_start E f : usual E -> forall h, h = empty_heap \/ parsed_heap E f h -> sound h.
Proof.
  intros U h [->|(bytes & n & s & BY & PC & R & ->)]; [apply empty_sound; reflexivity|].
  destruct (tree_sound E U f bytes BY PC n s R) as [[W _] _]. exact W.
Qed.

Lemma walk_eq W h (f : W -> ptr -> W * option herr) n p w : walk h f (S n) p w =
  match f w p with
  | (w1, Some e) => (Fail e, w1)
  | (w1, None) => match hget h p with None => (Pan, w1) | Some c => walks h f n (l_first (lk c)) w1 end
  end.
Proof. reflexivity. Qed.
Lemma walks_eq W h (f : W -> ptr -> W * option herr) n p w : walks h f (S n) (Some p) w =
  match walk h f n p w with
  | (Ret _, w1) => match hget h p with None => (Pan, w1) | Some c => walks h f n (l_next (lk c)) w1 end
  | r => r
  end.
Proof. reflexivity. Qed.
Lemma walk_less W (f : W -> ptr -> W * option herr) X u h : less X u h -> forall n,
  (forall p w, fst (walk u f n p w) <> Pan -> walk h f n p w = walk u f n p w) /\
  (forall o w, fst (walks u f n o w) <> Pan -> walks h f n o w = walks u f n o w).
Proof.
  intro L. induction n as [|n [I1 I2]]; (split; [intros p w|intros [p|] w]); intro NP; try reflexivity.
  - rewrite !walk_eq in *. destruct (f w p) as [w1 [e|]]; [reflexivity|]. destruct (hget u p) as [c|] eqn:Ec; [|exfalso; apply NP; reflexivity].
    destruct (less_get _ _ _ _ _ L Ec) as [-> _]. apply I2, NP.
  - rewrite !walks_eq in *. assert (N1 : fst (walk u f n p w) <> Pan).
    { intro Y. apply NP. destruct (walk u f n p w) as [[?|?| |] w1]; try discriminate Y. reflexivity. }
    rewrite (I1 _ _ N1). destruct (walk u f n p w) as [[x|e| |] w1]; try reflexivity.
    destruct (hget u p) as [c|] eqn:Ec; [|exfalso; apply NP; reflexivity].
    destruct (less_get _ _ _ _ _ L Ec) as [-> _]. apply I2, NP.
Qed.
Lemma chain_less X u h : less X u h -> forall n o, attrChain u n o <> Pan -> attrChain h n o = attrChain u n o.
Proof.
  intro L. induction n as [|n IH]; intros [p|] NP; cbn [attrChain] in *; try reflexivity.
  destruct (hget u p) as [c|] eqn:Ec; [|exfalso; apply NP; reflexivity]. destruct (less_get _ _ _ _ _ L Ec) as [-> _].
  destruct (dat c); try (exfalso; apply NP; reflexivity). rewrite (IH _ (obind_pan _ _ NP)). reflexivity.
Qed.
Lemma attributes_less X u h e : less X u h -> Attributes u e <> Pan -> Attributes h e = Attributes u e.
Proof.
  intros L NP. unfold Attributes in *. destruct (hget u e) as [c|] eqn:Ec; [|exfalso; apply NP; reflexivity].
  destruct (less_get _ _ _ _ _ L Ec) as [-> _]. rewrite (less_size _ _ _ L).
  destruct (dat c); try (exfalso; apply NP; reflexivity). eapply chain_less; eassumption.
Qed.

Section Edit.
Variable start : heap -> Prop.
Hypothesis Sound : forall h, start h -> sound h.

Lemma less_without X u h : less X u h -> without X h u.
Proof. intros (_ & _ & _ & A & B) x. split; [apply A|apply B]. Qed.
Lemma edit_lift A (m : HM A) X h r u' : since start X h -> fr m -> m (drop X h) = (r, u') -> r <> Pan ->
  exists h', m h = (r, h') /\ less X u' h'.
Proof.
  intros L Fm R NP. destruct (since_forest _ Sound _ _ L) as [Ls _]. destruct (Fm X (drop X h) h Ls) as (Er & L' & _); [rewrite R; exact NP|].
  destruct (m h) as [r' h']. rewrite R in *. cbn [fst snd] in *. subst r'. eauto.
Qed.
Lemma edit_sound X h : since start X h -> sound (drop X h).
Proof. intro L. apply (since_forest _ Sound _ _ L). Qed.
(* a call that is known to succeed without the nodes out of use *)
Lemma edit_ret (m : HM unit) (P : heap -> Prop) X h : since start X h -> fr m ->
  (exists u', m (drop X h) = (Ret tt, u') /\ P u') -> exists h' u', m h = (Ret tt, h') /\ without X h' u' /\ P u'.
Proof.
  intros L Fm (u' & R & Hp). destruct (edit_lift _ _ _ _ _ _ L Fm R) as (h' & R' & L'); [discriminate|].
  exists h', u'. split; [exact R'|]. split; [apply less_without, L'|exact Hp].
Qed.

Lemma edit_appends X h p q cs : since start X h -> attachable (drop X h) p q -> children (drop X h) p cs ->
  kind (drop X h) p <> Some TextNode -> kind (drop X h) p <> Some CommentNode ->
  (forall l, lasto cs = Some l ->
     kind (drop X h) l <> Some DocumentNode /\ ~ (kind (drop X h) l = Some TextNode /\ kind (drop X h) q = Some TextNode)) ->
  exists h' u', AddChild p q h = (Ret tt, h') /\ without X h' u' /\ only_children (drop X h) p (cs ++ [q]) u'.
Proof. intros L A C K1 K2 K3. apply edit_ret; [exact L|apply fr_AddChild|]. apply AddChild_appends; auto using edit_sound. Qed.
Lemma edit_merges X h p q cs l s t : since start X h -> attachable (drop X h) p q -> children (drop X h) p (cs ++ [l]) ->
  text_at (drop X h) l s -> text_at (drop X h) q t ->
  exists h' u', AddChild p q h = (Ret tt, h') /\ without X h' u' /\ only_data (drop X h) l (DText (s ++ t)) u'.
Proof. intros L A C K1 K2. apply edit_ret; [exact L|apply fr_AddChild|]. eapply AddChild_merges; eauto using edit_sound. Qed.
Lemma edit_sibling X h p q y cs : since start X h -> attachable (drop X h) p q -> children (drop X h) y cs -> In p cs -> ~ in_attr (drop X h) y ->
  kind (drop X h) p <> Some DocumentNode -> ~ (kind (drop X h) p = Some TextNode /\ kind (drop X h) q = Some TextNode) ->
  exists h' u', AddSibling p q h = (Ret tt, h') /\ without X h' u' /\ only_children (drop X h) y (cs ++ [q]) u'.
Proof. intros L A C I K1 K2 K3. apply edit_ret; [exact L|apply fr_AddSibling|]. eapply AddSibling_appends; eauto using edit_sound. Qed.
Lemma edit_sibling_merges X h p q s t : since start X h -> attachable (drop X h) p q -> text_at (drop X h) p s -> text_at (drop X h) q t ->
  exists h' u', AddSibling p q h = (Ret tt, h') /\ without X h' u' /\ only_data (drop X h) p (DText (s ++ t)) u'.
Proof. intros L A K1 K2. apply edit_ret; [exact L|apply fr_AddSibling|]. eapply AddSibling_merges; eauto using edit_sound. Qed.
Lemma edit_replace X h p a o b q : since start X h -> attachable (drop X h) p q -> children (drop X h) p (a ++ o :: b) ->
  kind (drop X h) o <> Some DocumentNode ->
  exists h' u', Replace o q h = (Ret tt, h') /\ without X h' u' /\ substituted (drop X h) p a o b q u'.
Proof. intros L A C K. apply edit_ret; [exact L|apply fr_Replace|]. eapply Replace_substitutes; eauto using edit_sound. Qed.
Lemma edit_root_appends X h d r cs : since start X h -> attachable (drop X h) d r -> kind (drop X h) d = Some DocumentNode ->
  kind (drop X h) r = Some ElementNode -> children (drop X h) d cs ->
  (forall x, In x cs -> kind (drop X h) x <> Some ElementNode /\ kind (drop X h) x <> Some DocumentNode) ->
  exists h' u', SetDocumentElement d r h = (Ret tt, h') /\ without X h' u' /\ only_children (drop X h) d (cs ++ [r]) u'.
Proof. intros L A K1 K2 C K. apply edit_ret; [exact L|apply fr_SetDocumentElement|]. eapply SetDocumentElement_appends; eauto using edit_sound. Qed.
Lemma edit_root_replaces X h d r a o b : since start X h -> attachable (drop X h) d r -> kind (drop X h) d = Some DocumentNode ->
  children (drop X h) d (a ++ o :: b) -> (forall x, In x a -> kind (drop X h) x <> Some ElementNode) -> kind (drop X h) o = Some ElementNode ->
  exists h' u', SetDocumentElement d r h = (Ret tt, h') /\ without X h' u' /\ substituted (drop X h) d a o b r u'.
Proof. intros L A K1 C K K2. apply edit_ret; [exact L|apply fr_SetDocumentElement|]. eapply SetDocumentElement_replaces; eauto using edit_sound. Qed.
Lemma edit_owner X h p d n : since start X h -> live (drop X h) p -> ~ in_attr (drop X h) p -> uniform (drop X h) d p -> (2 * size h <= n)%nat ->
  exists h' u', setTreeDoc n d p h = (Ret tt, h') /\ without X h' u' /\ owned (drop X h) d (within (drop X h) p) u'.
Proof.
  intros L A NA U B. apply edit_ret; [exact L|apply fr_owners|].
  destruct (SetTreeDoc_owns (drop X h) p d n (edit_sound _ _ L) A NA U) as (h' & R & O & _); [|eauto].
  unfold size in *. exact B.
Qed.
(* reading *)
Lemma edit_content X h p l n : since start X h -> live (drop X h) p -> ~ in_attr (drop X h) p -> preorder (drop X h) p l ->
  plain_entities (drop X h) l -> (2 * List.length l <= n)%nat -> Content n p h = (Ret (concat (map (own h) l)), h).
Proof.
  intros L A NA P Pe B. pose proof (edit_sound _ _ L) as Sd.
  pose proof (Content_concat _ _ _ n Sd A NA P Pe B) as R.
  destruct (since_forest _ Sound _ _ L) as [Ls _].
  destruct (fr_Content n p X (drop X h) h Ls) as (Er & _ & _); [rewrite R; discriminate|]. rewrite R in Er.
  unfold Content in *. cbn [fst] in Er. rewrite Er. f_equal. f_equal. f_equal. apply map_ext_in. intros x Hx.
  destruct (preorder_exact _ _ _ Sd A NA P) as [_ Q]. apply Q in Hx. unfold own, data_of.
  assert (Hl : exists c, hget (drop X h) x = Some c) by (destruct Hx as [|? c ? E _ _]; [exact A|eauto]).
  destruct Hl as (c & Ec). rewrite Ec. destruct (less_get _ _ _ _ _ Ls Ec) as [-> _]. reflexivity.
Qed.
Lemma edit_preorder X h p : since start X h -> live (drop X h) p -> ~ in_attr (drop X h) p ->
  exists l, preorder (drop X h) p l /\ NoDup l /\ forall x, In x l <-> ancestor (drop X h) p x.
Proof.
  intros L A NA. pose proof (edit_sound _ _ L) as Sd. destruct (reach_preorder _ _ Sd A NA) as (l & P).
  exists l. split; [exact P|]. eapply preorder_exact; eassumption.
Qed.
Lemma edit_walk W (f : W -> ptr -> W * option herr) X h p l n w : since start X h -> live (drop X h) p -> ~ in_attr (drop X h) p ->
  preorder (drop X h) p l -> (2 * List.length l <= n)%nat -> Walk h f n (Some p) w = visit f l w.
Proof.
  intros L A NA P B. pose proof (edit_sound _ _ L) as Sd. rewrite <- (Walk_visits f _ _ _ n w Sd A NA P B).
  destruct (since_forest _ Sound _ _ L) as [Ls _]. apply (walk_less _ f _ _ _ Ls n).
  change (fst (Walk (drop X h) f n (Some p) w) <> Pan). rewrite (Walk_visits f _ _ _ n w Sd A NA P B).
  clear. revert w. induction l as [|x l IH]; intro w; cbn [visit]; [discriminate|]. destruct (f w x) as [w1 [e|]]; [discriminate|apply IH].
Qed.
Lemma edit_add_content X h p l b h' n : since start X h -> live (drop X h) p -> ~ in_attr (drop X h) p -> preorder (drop X h) p l ->
  plain_entities (drop X h) l -> kind (drop X h) p <> Some EntityNode -> AddContent p b h = (Ret tt, h') -> (2 * List.length l + 2 <= n)%nat ->
  exists s, Content n p h = (Ret s, h) /\ Content n p h' = (Ret (s ++ b), h').
Proof.
  intros L A NA P Pe K R B. pose proof (edit_sound _ _ L) as Sd. destruct (since_forest _ Sound _ _ L) as [Ls _].
  assert (Rd : exists u', AddContent p b (drop X h) = (Ret tt, u') /\ less X u' h').
  { destruct Sd as (F & G & FH). destruct (AddContent_forest _ _ _ _ b FH A NA) as (r & u' & Ru & Ef & _).
    assert (NP : r <> Pan) by (destruct Ef as [| |cp r h0 E1 E2 Ef]; [discriminate|discriminate|destruct Ef; discriminate]).
    destruct (edit_lift _ _ _ _ _ _ L (fr_AddContent p b) Ru NP) as (h2 & R2 & L2). rewrite R in R2. injection R2 as <- <-. eauto. }
  destruct Rd as (u' & Ru & L'). destruct (AddContent_extends _ _ _ _ _ n Sd A NA P Pe K Ru B) as (s & C1 & C2).
  exists s. unfold Content in *. injection C1 as C1. injection C2 as C2.
  rewrite (proj1 (content_less _ _ _ Ls n)), (proj1 (content_less _ _ _ L' n)) by congruence. rewrite C1, C2. auto.
Qed.
(* attributes *)
Lemma edit_adds X h e name v text l : since start X h -> kind (drop X h) e = Some ElementNode ->
  Forall (fun r => valid_rune r = true) v -> decodes v text -> Attributes (drop X h) e = Ret l -> (forall x, In x l -> ~ attr_named h name x) ->
  exists a h', SetAttribute (S (List.length v)) e name (utf8 v) h = (Ret tt, h') /\
    Attributes h' e = Ret (l ++ [a]) /\ attr_is h' a name (utf8 text) /\
    (forall x c, hget h x = Some c -> x <> e -> ~ In x l -> hget h' x = Some c) /\
    (forall x, In x l -> data_of h' x = data_of h x /\ forall n s, Content n x (drop X h) = (Ret s, drop X h) -> Content n x h' = (Ret s, h')).
Proof.
  intros L K V D At Nn. pose proof (edit_sound _ _ L) as Sd. destruct (since_forest _ Sound _ _ L) as [Ls _].
  assert (Nn' : forall x, In x l -> ~ attr_named (drop X h) name x).
  { intros x Hx (c & df & Ec & Dc). destruct (less_get _ _ _ _ _ Ls Ec) as [Ec' _]. apply (Nn x Hx). exists c, df. auto. }
  destruct (SetAttribute_adds _ _ _ _ _ _ Sd K V D At Nn') as (a & u' & R & At' & Is & Old & Same & El).
  destruct (fr_SetAttribute (S (List.length v)) e name (utf8 v) X (drop X h) h Ls) as (Er & L' & Kx); [rewrite R; discriminate|].
  destruct (SetAttribute (S (List.length v)) e name (utf8 v) h) as [r h'] eqn:Rh. rewrite R in *. cbn [fst snd] in *. subst r.
  exists a, h'. split; [reflexivity|].
  assert (Inl : forall x, In x l -> exists c nm df, hget (drop X h) x = Some c /\ dat c = DAttr nm df).
  { clear - At. unfold Attributes in At. destruct (hget (drop X h) e) as [c|]; [|discriminate]. destruct (dat c); try discriminate.
    revert At. generalize (size (drop X h)). intro n. generalize props. revert l. induction n as [|n IH]; intros l [p|] At x Hx; cbn [attrChain] in At; try discriminate;
      try (injection At as <-; destruct Hx).
    destruct (hget (drop X h) p) as [cp|] eqn:Ep; [|discriminate]. destruct (dat cp) eqn:Dp; try discriminate.
    destruct (attrChain (drop X h) n (l_next (lk cp))) as [r|?| |] eqn:Er; try discriminate. cbn [obind] in At. injection At as <-.
    destruct Hx as [<-|Hx]; [eauto 6|]. eapply IH; eassumption. }
  split; [rewrite (attributes_less _ _ _ _ L'); [exact At'|rewrite At'; discriminate]|]. split.
  { destruct Is as [(c & df & Ec & Dc) Ct]. split; [exists c, df; split; [apply (less_get _ _ _ _ _ L' Ec)|exact Dc]|].
    intros n Hn. specialize (Ct n Hn). unfold Content in *. destruct (content_less _ _ _ L' n) as [Z _].
    injection Ct as Ct. rewrite Z; [rewrite Ct; reflexivity|rewrite Ct; discriminate]. }
  split.
  - intros x c Ec Nx Nl. destruct (pos_in x X) as [Hx|Hx]; [rewrite Kx by exact Hx; exact Ec|].
    assert (Ec' : hget (drop X h) x = Some c) by (rewrite (proj2 (hget_drop X h x) Hx); exact Ec).
    apply (less_get _ _ _ _ _ L' (Same x c Ec' Nx Nl)).
  - intros x Hx. destruct (Inl x Hx) as (c & nm & df & Ec & Dc). destruct (Old x nm df Hx) as [O1 O2].
    { unfold data_of. rewrite Ec. cbn. congruence. }
    destruct (less_get _ _ _ _ _ Ls Ec) as [Eh _]. split.
    + unfold data_of in O1 |- *. destruct (hget u' x) as [c'|] eqn:Eu; [|discriminate]. cbn in O1. injection O1 as O1.
      destruct (less_get _ _ _ _ _ L' Eu) as [-> _]. rewrite Eh. cbn. congruence.
    + intros n s Cs. specialize (O2 n). rewrite Cs in O2. unfold Content in *. cbn [fst] in O2.
      destruct (content_less _ _ _ L' n) as [Z _]. rewrite Z; [rewrite O2; reflexivity|rewrite O2; discriminate].
Qed.
Lemma edit_refuses X h e name v text l x : since start X h -> kind (drop X h) e = Some ElementNode ->
  Forall (fun r => valid_rune r = true) v -> decodes v text -> Attributes (drop X h) e = Ret l -> In x l -> attr_named (drop X h) name x ->
  exists h', SetAttribute (S (List.length v)) e name (utf8 v) h = (Fail "ErrDuplicateAttribute"%string, h') /\
    (forall y c, hget h y = Some c -> hget h' y = Some c) /\ Attributes h' e = Ret l.
Proof.
  intros L K V D At Hx Nx. pose proof (edit_sound _ _ L) as Sd. destruct (since_forest _ Sound _ _ L) as [Ls _].
  destruct (SetAttribute_refuses _ _ _ _ _ _ _ Sd K V D At Hx Nx) as (u' & R & Old & At').
  destruct (fr_SetAttribute (S (List.length v)) e name (utf8 v) X (drop X h) h Ls) as (Er & L' & Kx); [rewrite R; discriminate|].
  destruct (SetAttribute (S (List.length v)) e name (utf8 v) h) as [r h'] eqn:Rh. rewrite R in *. cbn [fst snd] in *. subst r.
  exists h'. split; [reflexivity|]. split.
  - intros y c Ec. destruct (pos_in y X) as [Hy|Hy]; [rewrite Kx by exact Hy; exact Ec|].
    assert (Ec' : hget (drop X h) y = Some c) by (rewrite (proj2 (hget_drop X h y) Hy); exact Ec).
    apply (less_get _ _ _ _ _ L' (Old y c Ec')).
  - rewrite (attributes_less _ _ _ _ L'); [exact At'|rewrite At'; discriminate].
Qed.
End Edit.

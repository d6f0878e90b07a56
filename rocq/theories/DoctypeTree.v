(* Documents with an internal subset as trees: the tree builder makes the nodes
   that the declarations stand for. *)
From Coq Require Import FMapPositive Permutation.
From Verif Require Import Escape Heap Dump TreeBuilder TreeShape TreeOps Forest ForestOps ForestAdd
  ForestAttr History TreeCalls TreeReplace Xml Mirror XmlBuild XmlSteps XmlElem XmlTree DtdProofs DtdHistory DtdTree XmlParse Diverge.
From Verif Require Import Base Utf8 Utf8Proofs XmlSpec Encoding Scan ScanProofs Parser Effects DocEffects LexProofs TextProofs Complete DocComplete
  Legal Content ContentProofs Doctype DoctypeAttr DoctypeContent DoctypeSubset DoctypeDoc DoctypeCases DoctypeNodes XmlGrammar.
From Verif Require Import Grammar.
Local Open Scope Z_scope.

(* ---- the tree builder with a store: accepts everything, and is dirty when
   the tree builder did not ---- *)
Record gst := Gs { g_tb : tb; g_store : list (str * str); g_dirty : bool }.
Definition nilb (r : hres) : bool := match r with HNil => true | _ => false end.
Definition g_known (s : gst) (n : str) : option str := stored (g_store s) n.
Definition forced (n c : str) : answer :=
  Answer (Some (Real {| e_id := 1; e_name := n; e_type := InternalGeneralEntity; e_content := c |})) false.
Definition right_answer (n c : str) (a : answer) : bool :=
  match a with
  | Answer (Some (Real e)) false => str_eqb (e_name e) n && (e_type e =? InternalGeneralEntity) && str_eqb (e_content e) c
  | _ => false
  end.
Definition guardH (m : nat) : handler gst := {|
  h_event := fun s v e => let r := tb_event m (g_tb s) v e in
    (Gs (fst r) (match e with EEntityDecl n t _ _ c => if t =? InternalGeneralEntity then (n, c) :: g_store s else g_store s | _ => g_store s end)
       (g_dirty s || negb (nilb (snd r))), HNil);
  h_getEntity := fun s v n => let r := tb_getEntity (g_tb s) v n in
    match stored (g_store s) n with
    | Some c => if right_answer n c (snd r) then (Gs (fst r) (g_store s) (g_dirty s), snd r) else (Gs (fst r) (g_store s) true, forced n c)
    | None => (Gs (fst r) (g_store s) (g_dirty s), snd r)
    end;
  h_getPEntity := fun s v n => let r := tb_getPEntity (g_tb s) v n in
    match snd r with
    | AnswerPanic => (Gs (fst r) (g_store s) true, Answer None true)
    | a => (Gs (fst r) (g_store s) (g_dirty s), a)
    end;
  h_setOrig := fun s e o => Gs (tb_setOrig (g_tb s) e o) (g_store s) (g_dirty s);
  h_mixed := fun s n => tb_mixed (g_tb s) n;
  h_docEntity := fun s n => tb_docEntity (g_tb s) n;
  h_createAttr := fun s l p v => let r := tb_createAttr m (g_tb s) l p v in
    match snd r with
    | Ret tt => (Gs (fst r) (g_store s) (g_dirty s), Ret tt)
    | _ => (Gs (fst r) (g_store s) true, Ret tt)
    end;
  h_chunkEnter := fun s => Gs (tb_chunkEnter (g_tb s)) (g_store s) (g_dirty s);
  h_chunkLeave := fun a b => Gs (tb_chunkLeave (g_tb a) (g_tb b)) (g_store b) (g_dirty b) |}.

Lemma right_is n c a : right_answer n c a = true ->
  exists i, a = Answer (Some (Real {| e_id := i; e_name := n; e_type := InternalGeneralEntity; e_content := c |})) false.
Proof.
  destruct a as [[[e|]|] []|]; cbn; try discriminate. intros X. apply andb_true_iff in X as [X X3]. apply andb_true_iff in X as [X1 X2].
  apply str_eqb_eq in X1, X3. apply Z.eqb_eq in X2. subst. exists (e_id e). rewrite <- X2. destruct e; reflexivity.
Qed.
Lemma guard_remembers m : remembers (guardH m) g_known.
Proof.
  constructor; cbn; auto.
  - intros h v n p s c _. change (InternalGeneralEntity =? InternalGeneralEntity) with true. unfold g_known, stored. cbn [find fst snd g_store].
    destruct (str_eqb_spec n n); [reflexivity|congruence].
  - intros h v e n He. destruct e; try reflexivity. cbn [fst g_known g_store].
    match goal with |- context [?t =? InternalGeneralEntity] => destruct (Z.eqb_spec t InternalGeneralEntity) as [->|]; [|reflexivity] end.
    unfold g_known, stored. cbn [find fst g_store].
    match goal with |- context [str_eqb ?m n] => destruct (str_eqb_spec m n) as [->|]; [|reflexivity] end. exfalso. eapply He. reflexivity.
  - intros h v n c Hn. unfold g_known in Hn. rewrite Hn. destruct (right_answer _ _ _) eqn:Ra; [apply right_is in Ra as (i & Ra); exists i; exact Ra|].
    exists 1. reflexivity.
  - intros h v n k. destruct (stored (g_store h) n); [destruct (right_answer _ _ _)|]; reflexivity.
  - intros h v n. destruct (tb_getPEntity (g_tb h) v n) as [s' []]; discriminate.
  - intros h v n k. destruct (tb_getPEntity (g_tb h) v n) as [s' []]; reflexivity.
  - intros h l p v. destruct (tb_createAttr m (g_tb h) l p v) as [s' [[]| | |]]; reflexivity.
  - intros h l p v k. destruct (tb_createAttr m (g_tb h) l p v) as [s' [[]| | |]]; reflexivity.
Qed.
Lemma guard_shadow m : shadow (fun a b => g_tb a = b) (fun a => g_dirty a = true) (guardH m) (treeH m).
Proof.
  constructor; cbn.
  - intros a b v e <-. right. destruct (tb_event m (g_tb a) v e) as [s' []]; cbn; [right; split; [reflexivity|]|..]; rewrite ?orb_true_r; auto.
  - intros a b v n <-. destruct (stored (g_store a) n) as [c|]; [destruct (right_answer _ _ _)|]; cbn; auto.
  - intros a b v n <-. destruct (tb_getPEntity (g_tb a) v n) as [s' []]; cbn; auto.
  - intros a b e l <-. reflexivity.
  - intros a b n <-. reflexivity.
  - intros a b n <-. reflexivity.
  - intros a b l p v <-. destruct (tb_createAttr m (g_tb a) l p v) as [s' [[]| | |]]; cbn; auto.
  - intros a b <-. reflexivity.
  - intros a b a' b' <- <-. reflexivity.
  - intros a v e ->. reflexivity.
  - intros a v n Ha. destruct (stored (g_store a) n) as [c|]; [destruct (right_answer _ _ _)|]; cbn; auto.
  - intros a v n Ha. destruct (tb_getPEntity (g_tb a) v n) as [s' []]; cbn; auto.
  - auto.
  - intros a l p v Ha. destruct (tb_createAttr m (g_tb a) l p v) as [s' [[]| | |]]; cbn; auto.
  - auto.
  - auto.
Qed.

(* a clean run of the guard is a run of the tree builder *)
Lemma clean_parse E m n bytes s' : Parse E gst (guardH m) n (Gs tb_init [] false) bytes = (Ret tt, s') -> g_dirty (hs s') = false ->
  exists s2, Parse E tb (treeH m) n tb_init bytes = (Ret tt, s2) /\ hs s2 = g_tb (hs s').
Proof.
  intros P C. destruct (dsim_Parse _ _ _ _ E _ _ (guard_shadow m) n (Gs tb_init [] false) tb_init bytes eq_refl) as [[(e & r & I & K)|B]|[A Q]].
  - exfalso. destruct (parse_tri E gst (guardH m) n (Gs tb_init [] false) bytes) as (tev & Te & Rs & _). rewrite Te in I. rewrite P in Rs.
    apply resp_ret_ok in Rs. rewrite forallb_forall in Rs. apply Rs in I. congruence.
  - rewrite P in B. cbn in B. congruence.
  - rewrite P in A, Q. cbn [fst snd] in *. destruct (Parse E tb (treeH m) n tb_init bytes) as [o s2]. cbn in *. exists s2. subst. auto.
Qed.

(* events without references and declarations reach the tree one by one *)
Lemma guard_feed E m v evs : forall g g', DoctypeContent.path E false (guardH m) v g evs g' -> (forall x, ~ In (EReference x) evs) ->
  forall s', feed m v (g_tb g) evs = Some s' -> g_tb g' = s' /\ g_dirty g' = g_dirty g.
Proof.
  intros g g' P. remember false as k eqn:Ek. induction P as [v h|v h e l h' Q P IH|v h pa n c lit l h' K|v h el a ty df c l h' K|v h w l1 h1 n l2 h2]; intros Nr s' F.
  - cbn [feed] in F. injection F as <-. auto.
  - cbn [feed] in F. destruct (tb_event m (g_tb h) v e) as [s1 []] eqn:Et; try discriminate.
    destruct IH with (s' := s') as [A B]; [intros x Hx; apply (Nr x); right; exact Hx|cbn; rewrite Et; exact F|].
    split; [exact A|]. rewrite B. cbn. rewrite Et. cbn. apply orb_false_r.
  - congruence.
  - congruence.
  - exfalso. apply (Nr n). apply in_elt.
Qed.

(* ---- the internal subset ---- *)
Definition plain_value (v : str) : Prop := exists rs, Forall (fun r => valid_rune r = true) rs /\ v = utf8 (ampesc rs).
Definition fit (m : nat) (e : event) : Prop :=
  match e with
  | EComment _ => True
  | EEntityDecl _ _ _ _ _ => True
  | EElementDecl _ t c => content_fits t c
  | EAttributeDecl _ a t _ v l => prefix_local a = ([], a) /\ 1 <= t <= 10 /\ plain_value v /\ (List.length v < m)%nat /\ l = []
  | _ => False
  end.
Inductive dkey := KE (p l : str) | KA (el name : str) | KG (n : str) | KP (n : str).
Definition ekeys (e : event) : list dkey :=
  match e with
  | EElementDecl n _ _ => let '(p, l) := prefix_local n in [KE p l]
  | EAttributeDecl el a _ _ _ _ => [KA el a]
  | _ => []
  end.
Definition dkeys (x : data) : list dkey :=
  match x with DElemDecl l p _ _ => [KE p l] | DAttrDecl el a _ _ _ _ _ => [KA el a] | _ => [] end.
(* with the names of entities *)
Definition evkeys (e : event) : list dkey :=
  match e with EEntityDecl n ty _ _ _ => [if ty <=? 3 then KG n else KP n] | _ => ekeys e end.
Definition datakeys (x : data) : list dkey :=
  match x with Heap.DEntity n ty _ _ _ _ => [if ty <=? 3 then KG n else KP n] | _ => dkeys x end.
(* a declaration node has an unprefixed attribute name *)
Definition single_att (x : data) : Prop :=
  match x with DAttrDecl _ a pf _ _ _ _ => pf = [] /\ ~ In 58 a | DElemDecl _ p _ _ => ~ In 58 p | _ => True end.
(* where the tables of a DTD have a declaration *)
Definition entry (t : Heap.tables) (x : data) : option ptr :=
  match x with
  | Heap.DEntity n ty _ _ _ _ => tget (if ty <=? 3 then t_ents t else t_pents t) n
  | DElemDecl l p _ _ => tget (t_elems t) (elem_key l p)
  | DAttrDecl el a pf _ _ _ _ => tget (t_attrs t) (attr_key a pf el)
  | _ => None
  end.
Definition found (t : Heap.tables) (ps : list ptr) (dd : list data) : Prop := Forall2 (fun p x => entry t x = Some p) ps dd.
Lemma found_step t t' q xq ps dd : found t ps dd -> entry t' xq = Some q -> (forall x, In x dd -> entry t' x = entry t x) ->
  found t' (ps ++ [q]) (dd ++ [xq]).
Proof.
  intros F Q O. apply Forall2_app; [|constructor; [exact Q|constructor]]. eapply forall2_by; [exact F|]. intros a b _ Hb X. cbv beta in *. rewrite O; assumption.
Qed.
Lemma put_same tb k q : tget (tput tb k q) k = Some q.
Proof. rewrite tget_put. destruct (str_eqb_spec k k); [reflexivity|congruence]. Qed.
Lemma put_other tb k q k' : k <> k' -> tget (tput tb k q) k' = tget tb k'.
Proof. intros N. rewrite tget_put. destruct (str_eqb_spec k k'); [contradiction|reflexivity]. Qed.
Definition fresh_for (k : dkey) (x : data) : Prop := ~ In k (datakeys x).
Lemma entry_entity ty n q t x : fresh_for (if ty <=? 3 then KG n else KP n) x -> entry (ent_tables ty n q t) x = entry t x.
Proof.
  intros H. unfold ent_tables. destruct (ty <=? 3) eqn:Et; destruct x; try reflexivity; cbn [entry t_ents t_pents];
    match goal with |- context [?a <=? 3] => destruct (a <=? 3) eqn:Ex end; try reflexivity; apply put_other; intros ->; apply H;
    cbn [datakeys]; rewrite Ex; left; reflexivity.
Qed.
Lemma entry_element l p q t x : ~ In 58 p -> single_att x -> fresh_for (KE p l) x -> entry (with_elems (tput (t_elems t) (elem_key l p) q) t) x = entry t x.
Proof.
  intros Hp Hx H. destruct x; try reflexivity. cbn [entry with_elems t_elems]. apply put_other. intros K. apply elem_key_inj in K as [-> ->]; [|assumption..].
  apply H. left. reflexivity.
Qed.
Lemma entry_attribute el a q t x : ~ In 58 a -> single_att x -> fresh_for (KA el a) x ->
  entry (with_attrs (tput (t_attrs t) (attr_key a [] el) q) t) x = entry t x.
Proof.
  intros Ha Hx H. destruct x; try reflexivity. cbn [entry with_attrs t_attrs]. destruct Hx as [-> Hx]. apply put_other. intros K.
  apply attr_key_inj in K as (-> & _ & ->); [|auto..]. apply H. left. reflexivity.
Qed.
Lemma fresh_all k dd r : NoDup (flat_map datakeys dd ++ k :: r) -> forall x, In x dd -> fresh_for k x.
Proof. intros N x Hx K. apply NoDup_remove_2 in N. apply N, in_or_app. left. apply in_flat_map. eauto. Qed.

Inductive lists (E : env) : list event -> list data -> list data -> Prop :=
| ls_nil : lists E [] [] []
| ls_comment t es dd l : lists E es dd l -> lists E (EComment t :: es) dd (DComment t :: l)
| ls_entity (b : bool) n c lit es dd l : literal_of E lit c -> lists E es dd l ->
    lists E (EEntityDecl n (if b then InternalParameterEntity else InternalGeneralEntity) [] [] c :: es)
      (Heap.DEntity n (if b then InternalParameterEntity else InternalGeneralEntity) [] [] c lit :: dd) l
| ls_element n p lo t c es dd l : prefix_local n = (p, lo) -> lists E es dd l ->
    lists E (EElementDecl n t c :: es) (DElemDecl lo p t c :: dd) l
| ls_attribute el a t df v es dd l : lists E es dd l ->
    lists E (EAttributeDecl el a t df v [] :: es) (DAttrDecl el a [] t df v [] :: dd) l.

Lemma single_no58 a : prefix_local a = ([], a) -> ~ In 58 a.
Proof.
  unfold prefix_local. destruct (split_colon a) as [[x y]|] eqn:S; intros X.
  - injection X as -> ->. apply split_colon_some in S as [S _]. apply (f_equal (@List.length Z)) in S. cbn in S. lia.
  - apply split_colon_none in S. exact S.
Qed.
Section Sub.
Variables (d dtd : ptr) (vs en : str) (sa : Z) (nm : str).
Lemma elem_free h t k1 k2 l1 l2 ps dd p l r : under d dtd vs en sa nm h t k1 k2 l1 l2 ps dd -> ~ In 58 p ->
  NoDup (flat_map dkeys dd ++ KE p l :: r) -> tget (t_elems t) (elem_key l p) = None.
Proof.
  intros U Hp Nd. destruct (tget (t_elems t) (elem_key l p)) as [q|] eqn:T; [|reflexivity]. exfalso.
  pose proof (proj1 (u_tabs _ _ _ _ _ _ _ _ _ _ _ _ _ _ U) _ _ T) as (n' & p' & ty & ct & Dq & K & _ & Hp').
  pose proof (u_elems _ _ _ _ _ _ _ _ _ _ _ _ _ _ U _ _ T) as Iq.
  destruct (has_in _ _ _ _ (u_decls _ _ _ _ _ _ _ _ _ _ _ _ _ _ U) Iq) as (x & Ix & Dx). rewrite Dq in Dx. injection Dx as <-.
  apply elem_key_inj in K as [-> ->]; [|assumption..]. apply NoDup_remove_2 in Nd. apply Nd. apply in_or_app. left.
  apply in_flat_map. eexists. split; [exact Ix|]. left. reflexivity.
Qed.
Lemma attr_free h t k1 k2 l1 l2 ps dd el a r : under d dtd vs en sa nm h t k1 k2 l1 l2 ps dd -> ~ In 58 a -> Forall single_att dd ->
  NoDup (flat_map dkeys dd ++ KA el a :: r) -> tget (t_attrs t) (attr_key a [] el) = None.
Proof.
  intros U Ha Sd Nd. destruct (tget (t_attrs t) (attr_key a [] el)) as [q|] eqn:T; [|reflexivity]. exfalso.
  pose proof (proj1 (proj2 (u_tabs _ _ _ _ _ _ _ _ _ _ _ _ _ _ U)) _ _ T) as (el' & a' & pf & ty & df & v & en' & Dq & K).
  pose proof (u_attrs _ _ _ _ _ _ _ _ _ _ _ _ _ _ U _ _ T) as Iq.
  destruct (has_in _ _ _ _ (u_decls _ _ _ _ _ _ _ _ _ _ _ _ _ _ U) Iq) as (x & Ix & Dx). rewrite Dq in Dx. injection Dx as <-.
  rewrite Forall_forall in Sd. destruct (Sd _ Ix) as [-> Ha'].
  apply attr_key_inj in K as (-> & _ & ->); [|auto..]. apply NoDup_remove_2 in Nd. apply Nd. apply in_or_app. left.
  apply in_flat_map. eexists. split; [exact Ix|]. left. reflexivity.
Qed.

Lemma noted_general m v g n c lit t q og : stored (g_store g) n = Some c -> tb_doc (g_tb g) = Some d ->
  data_of (tb_heap (g_tb g)) d = Some (DDoc vs en sa (Some dtd) None) -> data_of (tb_heap (g_tb g)) dtd = Some (DDtd nm [] [] t) ->
  tget (t_ents t) n = Some q -> data_of (tb_heap (g_tb g)) q = Some (Heap.DEntity n InternalGeneralEntity [] [] c og) ->
  noted (guardH m) v false n lit g =
    Gs (tb_setOrig (g_tb g) (Real {| e_id := Z.pos q; e_name := n; e_type := InternalGeneralEntity; e_content := c |}) lit) (g_store g) (g_dirty g).
Proof.
  intros St Sd D N T Q. unfold noted. cbn [h_getEntity guardH].
  rewrite (ask_general d dtd vs en sa nm _ v t n q _ _ _ _ _ Sd D N T Q), St. cbn [snd fst right_answer e_name e_type e_content].
  destruct (str_eqb_spec n n); [|congruence]. destruct (str_eqb_spec c c); [|congruence]. rewrite Z.eqb_refl. reflexivity.
Qed.
Lemma noted_parameter m v g n c lit t q og : tb_doc (g_tb g) = Some d ->
  data_of (tb_heap (g_tb g)) d = Some (DDoc vs en sa (Some dtd) None) -> data_of (tb_heap (g_tb g)) dtd = Some (DDtd nm [] [] t) ->
  tget (t_pents t) n = Some q -> data_of (tb_heap (g_tb g)) q = Some (Heap.DEntity n InternalParameterEntity [] [] c og) ->
  noted (guardH m) v true n lit g =
    Gs (tb_setOrig (g_tb g) (Real {| e_id := Z.pos q; e_name := n; e_type := InternalParameterEntity; e_content := c |}) lit) (g_store g) (g_dirty g).
Proof.
  intros Sd D N T Q. unfold noted. cbn [h_getPEntity guardH].
  rewrite (ask_parameter d dtd vs en sa nm _ v t n q _ _ _ _ _ Sd D N T Q). reflexivity.
Qed.
Lemma guard_event m v g e s' : tb_event m (g_tb g) v e = (s', HNil) -> exists st, fst (h_event (guardH m) g v e) = Gs s' st (g_dirty g) /\
  forall n c, e = EEntityDecl n InternalGeneralEntity [] [] c -> stored st n = Some c.
Proof.
  intros T. cbn. rewrite T. cbn. rewrite orb_false_r. eexists. split; [reflexivity|]. intros n c ->.
  change (InternalGeneralEntity =? InternalGeneralEntity) with true. unfold stored. cbn [find fst].
  destruct (str_eqb_spec n n); [reflexivity|congruence].
Qed.
Lemma in_subset_heap s h : in_subset d s -> in_subset d (with_heap h s).
Proof. intros [A B]. split; assumption. Qed.

Lemma under_noted m v g n lit c (b : bool) t k1 k2 l1 l2 ps dd : v_inSubset v = 1 -> in_subset d (g_tb g) ->
  under d dtd vs en sa nm (tb_heap (g_tb g)) t k1 k2 l1 l2 ps dd ->
  let ty := if b then InternalParameterEntity else InternalGeneralEntity in
  exists g' q, noted (guardH m) v b n lit (fst (h_event (guardH m) g v (EEntityDecl n ty [] [] c))) = g' /\
    in_subset d (g_tb g') /\ g_dirty g' = g_dirty g /\
    under d dtd vs en sa nm (tb_heap (g_tb g')) (ent_tables ty n q t) k1 k2 l1 l2 (ps ++ [q]) (dd ++ [Heap.DEntity n ty [] [] c lit]).
Proof.
  intros V Is U ty.
  destruct (under_entity d dtd vs en sa nm m v (g_tb g) t k1 k2 l1 l2 ps dd n ty c V Is U) as (q & h' & R & U').
  { unfold ty. destruct b; vm_compute; split; discriminate. }
  destruct (guard_event m v g _ _ R) as (st & -> & Hs).
  destruct (under_orig d dtd vs en sa nm (with_heap h' (g_tb g)) _ k1 k2 l1 l2 ps q dd n ty c [] lit U') as (h2 & S2 & U2).
  pose proof (u_doc _ _ _ _ _ _ _ _ _ _ _ _ _ _ U') as D. pose proof (u_name _ _ _ _ _ _ _ _ _ _ _ _ _ _ U') as N.
  assert (Q : data_of h' q = Some (Heap.DEntity n ty [] [] c [])).
  { pose proof (u_decls _ _ _ _ _ _ _ _ _ _ _ _ _ _ U') as F. apply Forall2_app_inv_l in F as (x & y & _ & F & E). inversion F as [|? z ? ? F1 F2]; subst.
    inversion F2; subst. apply app_inj_tail in E as [_ ->]. exact F1. }
  unfold ty in *. destruct b; eexists _, q; (split; [reflexivity|]).
  - rewrite (noted_parameter m v (Gs (with_heap h' (g_tb g)) st (g_dirty g)) n c lit _ q [] (proj1 Is) D N); [| |exact Q].
    + cbn [g_tb g_dirty]. rewrite S2. split; [apply in_subset_heap, in_subset_heap, Is|]. split; [reflexivity|exact U2].
    + change (t_pents (ent_tables InternalParameterEntity n q t)) with (tput (t_pents t) n q). rewrite tget_put. destruct (str_eqb_spec n n); [reflexivity|congruence].
  - rewrite (noted_general m v (Gs (with_heap h' (g_tb g)) st (g_dirty g)) n c lit _ q [] (Hs _ _ eq_refl) (proj1 Is) D N); [| |exact Q].
    + cbn [g_tb g_dirty]. rewrite S2. split; [apply in_subset_heap, in_subset_heap, Is|]. split; [reflexivity|exact U2].
    + change (t_ents (ent_tables InternalGeneralEntity n q t)) with (tput (t_ents t) n q). rewrite tget_put. destruct (str_eqb_spec n n); [reflexivity|congruence].
Qed.

(* a step that adds the nodes [x] to the declarations and [y] to the document *)
Definition steps (E : env) (g' : gst) (dirty : bool) (es : list event) t k1 l1 (l2 : list data) ps (dd : list data) : Prop :=
  exists t' k2' ps' x y, in_subset d (g_tb g') /\ g_dirty g' = dirty /\
    under d dtd vs en sa nm (tb_heap (g_tb g')) t' k1 k2' l1 (l2 ++ y) ps' (dd ++ x) /\ lists E es x y /\
    (found t ps dd -> NoDup (flat_map datakeys dd ++ flat_map evkeys es) -> found t' ps' (dd ++ x)).

Lemma attribute_step m v h el a ty df c t k1 k2 l1 l2 ps dd r : v_inSubset v = 1 -> in_subset d (g_tb h) ->
  under d dtd vs en sa nm (tb_heap (g_tb h)) t k1 k2 l1 l2 ps dd -> prefix_local a = ([], a) -> 1 <= ty <= 10 -> Forall single_att dd ->
  NoDup (flat_map dkeys dd ++ KA el a :: r) -> exists q h2 st,
    fst (h_event (guardH m) h v (EAttributeDecl el a ty df c [])) = Gs (with_heap h2 (g_tb h)) st (g_dirty h) /\
    under d dtd vs en sa nm h2 (with_attrs (tput (t_attrs t) (attr_key a [] el) q) t) k1 k2 l1 l2 (ps ++ [q]) (dd ++ [DAttrDecl el a [] ty df c []]).
Proof.
  intros V Is U Pl Ht Sa Nd.
  destruct (under_attribute d dtd vs en sa nm m v (g_tb h) t k1 k2 l1 l2 ps dd el a ty df c V Is U Pl Ht
              (attr_free _ _ _ _ _ _ _ _ _ _ _ U (single_no58 _ Pl) Sa Nd)) as (q & h2 & R & U2).
  destruct (guard_event m v h _ _ R) as (st & Hg & _). eauto 8.
Qed.
Lemma under_subset E m v g es g' : DoctypeContent.path E true (guardH m) v g es g' -> v_inSubset v = 1 -> Forall (fit m) es ->
  forall t k1 k2 l1 l2 ps dd, in_subset d (g_tb g) -> under d dtd vs en sa nm (tb_heap (g_tb g)) t k1 k2 l1 l2 ps dd ->
  Forall single_att dd -> NoDup (flat_map dkeys dd ++ flat_map ekeys es) ->
  steps E g' (g_dirty g) es t k1 l1 l2 ps dd.
Proof.
  intros P. induction P as [v h|v h e l h' Q P IH|v h pa n c lit l h' K Lit P IH|v h el a ty df c l h' K P IH|v h w l1' h1 n l2' h2];
    intros V Ft t k1 k2 l1 l2 ps dd Is U Sa Nd.
  - exists t, k2, ps, [], []. rewrite !app_nil_r. split; [exact Is|]. split; [reflexivity|]. split; [exact U|]. split; [constructor|auto].
  - inversion Ft as [|? ? F1 F2]; subst. destruct e; try contradiction; try (exfalso; eapply Q; reflexivity).
    + (* comment *)
      destruct (under_comment d dtd vs en sa nm m v (g_tb h) t k1 k2 l1 l2 ps dd s Is U) as (h2 & R & U2).
      destruct (guard_event m v h _ _ R) as (st & Hg & _). rewrite Hg in *.
      destruct (IH V F2 _ _ _ _ _ _ _ (in_subset_heap _ h2 Is) U2 Sa Nd) as (t' & k2' & ps' & x & y & I' & D' & U' & L' & Fd').
      exists t', k2', ps'. eexists x, (_ :: y). split; [exact I'|]. split; [exact D'|]. rewrite <- app_assoc in U'. split; [exact U'|].
      split; [constructor; exact L'|exact Fd'].
    + (* element *)
      cbn [flat_map ekeys] in Nd. destruct (prefix_local name) as [p lo] eqn:Pl. cbn [app] in Nd.
      destruct (under_element d dtd vs en sa nm m v (g_tb h) t k1 k2 l1 l2 ps dd name p lo typ content V Is U Pl F1
                  (elem_free _ _ _ _ _ _ _ _ _ _ _ U (prefix_no_colon _ _ _ Pl) Nd)) as (q & h2 & R & U2).
      destruct (guard_event m v h _ _ R) as (st & Hg & _). rewrite Hg in *.
      destruct (IH V F2 _ _ _ _ _ _ _ (in_subset_heap _ h2 Is) U2) as (t' & k2' & ps' & x & y & I' & D' & U' & L' & Fd').
      * apply Forall_app. split; [exact Sa|]. constructor; [exact (prefix_no_colon _ _ _ Pl)|constructor].
      * rewrite flat_map_app, <- app_assoc. exact Nd.
      * exists t', k2', ps'. eexists (_ :: x), y. split; [exact I'|]. split; [exact D'|]. rewrite <- app_assoc in U'. split; [exact U'|].
        split; [constructor; [exact Pl|exact L']|]. intros Fd Nf. cbn [flat_map evkeys ekeys] in Nf. rewrite Pl in Nf. cbn [app] in Nf.
        rewrite <- app_assoc in Fd'. apply Fd'; [|rewrite flat_map_app, <- app_assoc; exact Nf]. eapply found_step; [exact Fd|apply put_same|].
        intros x0 Hx0. rewrite Forall_forall in Sa. apply entry_element; [exact (prefix_no_colon _ _ _ Pl)|auto|eapply fresh_all; eassumption].
    + (* attribute *)
      destruct F1 as (Pl & Ht & Vv & Hn & ->). cbn [flat_map ekeys app] in Nd.
      destruct (attribute_step m v h _ _ _ def value _ _ _ _ _ _ _ _ V Is U Pl Ht Sa Nd) as (q & h2 & st & Hg & U2).
      rewrite Hg in *. destruct (IH V F2 _ _ _ _ _ _ _ (in_subset_heap _ h2 Is) U2) as (t' & k2' & ps' & x & y & I' & D' & U' & L' & Fd').
      * apply Forall_app. split; [exact Sa|]. constructor; [|constructor]. split; [reflexivity|apply single_no58, Pl].
      * rewrite flat_map_app, <- app_assoc. exact Nd.
      * exists t', k2', ps'. eexists (_ :: x), y. split; [exact I'|]. split; [exact D'|]. rewrite <- app_assoc in U'. split; [exact U'|].
        split; [constructor; exact L'|]. intros Fd Nf. cbn [flat_map evkeys ekeys app] in Nf.
        rewrite <- app_assoc in Fd'. apply Fd'; [|rewrite flat_map_app, <- app_assoc; exact Nf]. eapply found_step; [exact Fd|apply put_same|].
        intros x0 Hx0. rewrite Forall_forall in Sa. apply entry_attribute; [apply single_no58, Pl|auto|eapply fresh_all; eassumption].
  - inversion Ft as [|? ? F1 F2]; subst. cbn [flat_map ekeys app] in Nd.
    destruct (under_noted m v h n lit c pa t k1 k2 l1 l2 ps dd V Is U) as (g1 & q & Hg & I2 & D2 & U2). rewrite Hg in *.
    destruct (IH V F2 _ _ _ _ _ _ _ I2 U2) as (t' & k2' & ps' & x & y & I' & D' & U' & L' & Fd').
    + apply Forall_app. split; [exact Sa|]. constructor; [exact I|constructor].
    + rewrite flat_map_app, <- app_assoc. exact Nd.
    + exists t', k2', ps'. eexists (_ :: x), y. split; [exact I'|]. split; [congruence|]. rewrite <- app_assoc in U'. split; [exact U'|].
      split; [constructor; assumption|]. intros Fd Nf. cbn [flat_map evkeys app] in Nf.
      rewrite <- app_assoc in Fd'. apply Fd'; [|rewrite flat_map_app, <- app_assoc; exact Nf]. eapply found_step; [exact Fd| |].
      * unfold ent_tables. destruct pa; apply put_same.
      * intros x0 Hx0. apply entry_entity. eapply fresh_all; eassumption.
  - inversion Ft as [|? ? F1 F2]; subst. destruct F1 as (Pl & Ht & (rs & Vr & ->) & Hn & _). cbn [flat_map ekeys app] in Nd.
    destruct (attribute_step m v h _ _ _ df (utf8 (ampesc rs)) _ _ _ _ _ _ _ _ V Is U Pl Ht Sa Nd) as (q & h2 & st & Hg & U2). rewrite Hg in *.
    destruct (under_attr d dtd vs en sa nm m (with_heap h2 (g_tb h)) _ k1 k2 l1 l2 _ _ a rs U2 Vr) as (h3 & R3 & U3).
    { pose proof (ampesc_length rs). lia. }
    assert (Hc : fst (h_createAttr (guardH m) (Gs (with_heap h2 (g_tb h)) st (g_dirty h)) a [] (utf8 (ampesc rs))) =
                 Gs (with_heap h3 (with_heap h2 (g_tb h))) st (g_dirty h)) by (cbn; rewrite R3; reflexivity).
    rewrite Hc in *. destruct (IH V F2 _ _ _ _ _ _ _ (in_subset_heap _ h3 (in_subset_heap _ h2 Is)) U3) as (t' & k2' & ps' & x & y & I' & D' & U' & L' & Fd').
    + apply Forall_app. split; [exact Sa|]. constructor; [|constructor]. split; [reflexivity|apply single_no58, Pl].
    + rewrite flat_map_app, <- app_assoc. exact Nd.
    + exists t', k2', ps'. eexists (_ :: x), y. split; [exact I'|]. split; [exact D'|]. rewrite <- app_assoc in U'. split; [exact U'|].
      split; [constructor; exact L'|]. intros Fd Nf. cbn [flat_map evkeys ekeys app] in Nf.
      rewrite <- app_assoc in Fd'. apply Fd'; [|rewrite flat_map_app, <- app_assoc; exact Nf]. eapply found_step; [exact Fd|apply put_same|].
      intros x0 Hx0. rewrite Forall_forall in Sa. apply entry_attribute; [apply single_no58, Pl|auto|eapply fresh_all; eassumption].
  - exfalso. apply Forall_app in Ft as [_ Ft]. inversion Ft as [|? ? F1 F2]. exact F1.
Qed.
End Sub.

(* ---- default values: normalising spaces keeps them plain ---- *)
Lemma split_skip x : ~ In 32 x -> forall cur y, split_spaces cur (x ++ y) = split_spaces (cur ++ x) y.
Proof.
  induction x as [|c x IH]; intros H cur y; [rewrite app_nil_r; reflexivity|]. cbn [app split_spaces].
  destruct (Z.eqb_spec c 32) as [->|]; [exfalso; apply H; left; reflexivity|]. rewrite IH by (intros X; apply H; right; exact X).
  rewrite <- app_assoc. reflexivity.
Qed.
Section Blocks.
Variable f : Z -> list Z.
Hypothesis f32 : f 32 = [32].
Hypothesis fne : forall r, f r <> [].
Hypothesis fno : forall r, r <> 32 -> ~ In 32 (f r).
Lemma split_blocks s : forall cur, split_spaces (flat_map f cur) (flat_map f s) = map (flat_map f) (split_spaces cur s).
Proof.
  assert (Z0 : forall cur, flat_map f cur = [] -> cur = []).
  { intros [|r cur] X; [reflexivity|]. cbn in X. apply app_eq_nil in X as [X _]. exfalso. exact (fne r X). }
  induction s as [|c s IH]; intros cur.
  - cbn [flat_map split_spaces]. destruct cur as [|r cur]; [reflexivity|]. destruct (flat_map f (r :: cur)) eqn:X; [apply Z0 in X; discriminate|].
    rewrite <- X. reflexivity.
  - cbn [flat_map split_spaces]. destruct (Z.eqb_spec c 32) as [->|Hc].
    + rewrite f32. cbn [app split_spaces]. change (32 =? 32) with true. cbn iota. pose proof (IH []) as IH0. cbn [flat_map] in IH0. rewrite IH0.
      destruct cur as [|r cur]; [reflexivity|]. destruct (flat_map f (r :: cur)) eqn:X; [apply Z0 in X; discriminate|]. rewrite <- X. reflexivity.
    + rewrite split_skip by auto. rewrite <- (IH (cur ++ [c])). rewrite flat_map_app. cbn [flat_map]. rewrite app_nil_r. reflexivity.
Qed.
Lemma spaced_blocks ws : spaced (map (flat_map f) ws) = flat_map f (spaced ws).
Proof.
  induction ws as [|w ws IH]; [reflexivity|]. destruct ws as [|w' ws]; [reflexivity|].
  change (flat_map f w ++ [32] ++ spaced (map (flat_map f) (w' :: ws)) = flat_map f (w ++ [32] ++ spaced (w' :: ws))).
  rewrite !flat_map_app, IH. cbn [flat_map]. rewrite f32, app_nil_r. reflexivity.
Qed.
End Blocks.
Lemma split_all (P : Z -> Prop) s : Forall P s -> forall cur, Forall P cur -> Forall (Forall P) (split_spaces cur s).
Proof.
  induction 1 as [|c s Hc Hs IH]; intros cur Hcur; cbn [split_spaces].
  - destruct cur; constructor; [exact Hcur|constructor].
  - destruct (c =? 32); [destruct cur; [apply IH; constructor|constructor; [exact Hcur|apply IH; constructor]]|].
    apply IH. apply Forall_app. split; [exact Hcur|]. constructor; [exact Hc|constructor].
Qed.
Lemma spaced_all (P : Z -> Prop) ws : P 32 -> Forall (Forall P) ws -> Forall P (spaced ws).
Proof.
  intros H. induction 1 as [|w ws Hw Hs IH]; [constructor|]. destruct ws as [|w' ws]; [exact Hw|].
  change (Forall P (w ++ [32] ++ spaced (w' :: ws))). apply Forall_app. split; [exact Hw|]. constructor; [exact H|exact IH].
Qed.
Lemma plain_blocks rs : utf8 (ampesc rs) = flat_map (fun r => utf8 (amp r)) rs.
Proof. induction rs as [|r rs IH]; [reflexivity|]. unfold ampesc in *. cbn [flat_map]. rewrite <- IH. unfold utf8. apply flat_map_app. Qed.
Lemma plain_spaced v : plain_value v -> plain_value (spaced (tokens v)).
Proof.
  intros (rs & V & ->). exists (spaced (tokens rs)). split.
  - apply spaced_all; [reflexivity|]. apply split_all; [exact V|constructor].
  - rewrite !plain_blocks. set (f := fun r => utf8 (amp r)). unfold tokens. change (@nil Z) with (flat_map f []) at 1.
    assert (f32 : f 32 = [32]) by reflexivity.
    rewrite split_blocks; [apply spaced_blocks, f32|exact f32| |].
    + intros r X. unfold f, amp in X. destruct (r =? 38); [discriminate|]. apply (f_equal (@List.length Z)) in X.
      pose proof (ampesc_length [r]) as L. unfold ampesc, amp in L. cbn [flat_map] in L. destruct (r =? 38) eqn:Er; [|cbn [app] in L; rewrite X in L; cbn in L; lia].
      cbn in X. destruct (encode_rune r) eqn:Y; [|discriminate]. apply Z.eqb_eq in Er. subst r. discriminate.
    + intros r Hr X. unfold f, amp in X. destruct (Z.eqb_spec r 38) as [->|]; [vm_compute in X; intuition discriminate|].
      apply utf8_In_ascii in X; [|lia]. destruct X as [X|[]]. auto.
Qed.

(* ---- what the grammar of the internal subset gives ---- *)
Inductive rkey := RE (p l : list Z) | RA (e a : list Z) | RG (n : list Z) | RP (n : list Z).
Definition skeys (s : single) : list rkey :=
  match s with OneElement p l _ => [RE p l] | OneAttribute p l a => [RA (qname p l) (ad_name a)] | _ => [] end.
Definition allkeys (s : single) : list rkey := match s with OneEntity b n _ => [if b then RP n else RG n] | _ => skeys s end.
Definition enc (k : rkey) : dkey :=
  match k with RE p l => KE (utf8 p) (utf8 l) | RA e a => KA (utf8 e) (utf8 a) | RG n => KG (utf8 n) | RP n => KP (utf8 n) end.
Definition valids (l : list Z) : Prop := Forall (fun r => valid_rune r = true) l.
Definition kvalid (k : rkey) : Prop :=
  match k with RE p l => valids p /\ valids l | RA e a => valids e /\ valids a | RG n | RP n => valids n end.
Lemma enc_inj k k' : kvalid k -> kvalid k' -> enc k = enc k' -> k = k'.
Proof.
  destruct k, k'; cbn; intros A B H; try discriminate; [destruct A as [A1 A2], B as [B1 B2]|destruct A as [A1 A2], B as [B1 B2]| |].
  - injection H as H1 H2. apply utf8_inj in H1; auto; apply utf8_inj in H2; auto; congruence.
  - injection H as H1 H2. apply utf8_inj in H1; auto; apply utf8_inj in H2; auto; congruence.
  - injection H as H1. apply utf8_inj in H1; auto. congruence.
  - injection H as H1. apply utf8_inj in H1; auto. congruence.
Qed.
Lemma nodup_enc l : Forall kvalid l -> NoDup l -> NoDup (map enc l).
Proof.
  induction 1 as [|k l Hk Hl IH]; intros N; [constructor|]. inversion N as [|? ? N1 N2]; subst. cbn [map]. constructor; [|auto].
  intros X. apply in_map_iff in X as (k' & X1 & X2). rewrite Forall_forall in Hl. apply enc_inj in X1; auto. subst. contradiction.
Qed.
Definition elemb (k : rkey) : bool := match k with RE _ _ => true | _ => false end.
Lemma nodup_parts {A} (f : A -> bool) l : NoDup (filter f l) -> NoDup (filter (fun x => negb (f x)) l) -> NoDup l.
Proof.
  induction l as [|x l IH]; intros N1 N2; [constructor|]. cbn [filter] in *. destruct (f x) eqn:Fx; cbn [negb] in *.
  - inversion N1; subst. constructor; [|auto]. intros X. match goal with H : ~ In x _ |- _ => apply H end. apply filter_In. auto.
  - inversion N2; subst. constructor; [|auto]. intros X. match goal with H : ~ In x _ |- _ => apply H end. apply filter_In. rewrite Fx. auto.
Qed.
Definition namedb (k : rkey) : bool := match k with RE _ _ | RA _ _ => true | _ => false end.
Definition dnamedb (k : dkey) : bool := match k with KE _ _ | KA _ _ => true | _ => false end.
Lemma skeys_filter l : flat_map skeys l = filter namedb (flat_map allkeys l).
Proof. induction l as [|s l IH]; [reflexivity|]. cbn [flat_map]. rewrite filter_app, <- IH. f_equal. destruct s as [[]| |]; reflexivity. Qed.
Lemma ekeys_filter l : flat_map ekeys l = filter dnamedb (flat_map evkeys l).
Proof.
  induction l as [|s l IH]; [reflexivity|]. cbn [flat_map]. rewrite filter_app, <- IH. f_equal. destruct s; try reflexivity; cbn.
  - destruct (_ <=? _); reflexivity.
  - destruct (prefix_local _). reflexivity.
Qed.
Lemma enc_filter l : filter dnamedb (map enc l) = map enc (filter namedb l).
Proof. induction l as [|[] l IH]; cbn; congruence. Qed.
Lemma nodup_skeys ds : elements_once ds -> fine ds -> NoDup (flat_map skeys (singles ds)).
Proof.
  intros N1 (_ & _ & N2). apply (nodup_parts elemb).
  - replace (filter elemb (flat_map skeys (singles ds))) with
      (map (fun x => RE (fst x) (snd x)) (flat_map (fun d => match d with DElement p l _ => [(p, l)] | _ => [] end) ds)).
    + apply FinFun.Injective_map_NoDup; [|exact N1]. intros [a b] [a' b'] X. cbn in X. congruence.
    + clear. induction ds as [|x ds IH]; [reflexivity|]. unfold singles in *. cbn [flat_map]. rewrite !flat_map_app, filter_app, map_app, IH. f_equal.
      destruct x; try reflexivity. cbn [map flat_map skeys app]. induction defs as [|a defs IHd]; [reflexivity|]. cbn. exact IHd.
  - replace (filter (fun x => negb (elemb x)) (flat_map skeys (singles ds))) with
      (map (fun x => RA (fst x) (snd x)) (map (fun x => (qname (fst (fst x)) (snd (fst x)), ad_name (snd x))) (declared ds))).
    + apply FinFun.Injective_map_NoDup; [|exact N2]. intros [a b] [a' b'] X. cbn in X. congruence.
    + clear. induction ds as [|x ds IH]; [reflexivity|]. unfold singles, declared in *. cbn [flat_map]. rewrite !flat_map_app, filter_app, !map_app, IH. f_equal.
      destruct x; try reflexivity. cbn [map flat_map skeys app]. induction defs as [|a defs IHd]; [reflexivity|]. cbn. f_equal. exact IHd.
Qed.

Lemma nodup_allkeys ds : elements_once ds -> parameters_once ds -> fine ds -> NoDup (flat_map allkeys (singles ds)).
Proof.
  intros N1 N2 Fi. apply (nodup_parts namedb); [rewrite <- skeys_filter; apply nodup_skeys; assumption|].
  set (l := filter _ _). apply (nodup_parts (fun k => match k with RG _ => true | _ => false end)); unfold l; clear l.
  - destruct Fi as (N3 & _).
    replace (filter _ (filter _ _)) with (map RG (map fst (entities ds))).
    + apply FinFun.Injective_map_NoDup; [|exact N3]. intros a b X. congruence.
    + clear. induction ds as [|x ds IH]; [reflexivity|]. unfold singles, entities in *. cbn [flat_map]. rewrite !flat_map_app, !filter_app, !map_app, IH. f_equal.
      destruct x as [[]| |]; try reflexivity. cbn [map flat_map allkeys skeys app]. induction defs as [|a defs IHd]; [reflexivity|]. cbn. exact IHd.
  - replace (filter _ (filter _ _)) with (map RP (flat_map (fun d => match d with Doctype.DEntity true n _ => [n] | _ => [] end) ds)).
    + apply FinFun.Injective_map_NoDup; [|exact N2]. intros a b X. congruence.
    + clear. induction ds as [|x ds IH]; [reflexivity|]. unfold singles in *. cbn [flat_map]. rewrite !flat_map_app, !filter_app, !map_app, IH. f_equal.
      destruct x as [[]| |]; try reflexivity. cbn [map flat_map allkeys skeys app]. induction defs as [|a defs IHd]; [reflexivity|]. cbn. exact IHd.
Qed.
Lemma split_first a b : ~ In 58 a -> split_colon (a ++ 58 :: b) = Some (a, b).
Proof.
  induction a as [|x a IH]; intros N; [reflexivity|]. cbn [app split_colon].
  destruct (Z.eqb_spec x 58) as [->|]; [exfalso; apply N; left; reflexivity|]. rewrite IH by (intros X; apply N; right; exact X). reflexivity.
Qed.
Section Shape.
Variable E : env.
Variable OK : env_ok E.
Lemma pname_split p l : qnamed E p l -> prefix_local (utf8 (qname p l)) = (utf8 p, utf8 l).
Proof.
  intros [Hp Hl]. destruct p as [|c p]; [apply (ncname_single E OK), Hl|]. destruct Hp as [Hp|Hp]; [discriminate|].
  change (qname (c :: p) l) with ((c :: p) ++ 58 :: l). set (q := c :: p) in *. unfold utf8. rewrite flat_map_app.
  change (flat_map encode_rune (58 :: l)) with (58 :: utf8 l). fold (utf8 q). unfold prefix_local.
  assert (N : ~ In 58 (utf8 q)).
  { intros X. apply utf8_In_ascii in X; [|lia]. revert X. apply (ncname_no58 E OK), Hp. }
  rewrite (split_first _ _ N). reflexivity.
Qed.
Lemma qvalid p l : qnamed E p l -> valids p /\ valids l /\ valids (qname p l).
Proof.
  intros [Hp Hl]. pose proof (ncname_valid E _ Hl) as Vl. destruct p as [|c p]; [split; [constructor|auto]|]. destruct Hp as [Hp|Hp]; [discriminate|].
  pose proof (ncname_valid E _ Hp) as Vp. split; [exact Vp|]. split; [exact Vl|]. unfold qname. apply Forall_app. split; [exact Vp|].
  constructor; [reflexivity|exact Vl].
Qed.
Definition att_good (a : attdef) : Prop := ncname E (ad_name a) /\ plain_value (default_value (ad_type a) (ad_default a)).
Lemma plain_lit q lit v : attlit q lit v -> plain_value v.
Proof. intros H. apply attlit_runes in H as (rs & V & ->). exists rs. auto. Qed.
Lemma attdef_good a t : attdef_text E a t -> att_good a.
Proof.
  intros [b1 b2 t' _ _ _ _ N D _]. split; [exact N|].
  assert (T : forall q lit v, attlit q lit v -> plain_value (typed (ad_type a) v)).
  { intros q lit v L. unfold typed. destruct (is_cdata _); [eapply plain_lit, L|]. eapply plain_spaced, plain_lit, L. }
  inversion D; cbn [default_value]; eauto; exists []; split; constructor.
Qed.
Lemma attdefs_good defs t : attdefs E defs t -> Forall att_good defs.
Proof. induction 1; constructor; eauto using attdef_good. Qed.

Lemma same_only e e' : same e e' -> in_subset_event e ->
  e' = e \/ exists n t m m', e = EElementDecl n t m /\ e' = EElementDecl n t m' /\ (forall w, stored_lang t m w <-> stored_lang t m' w) /\ (m = None <-> m' = None).
Proof. intros [] Hi; auto; try contradiction. right. eauto 10. Qed.
Lemma same_atts p l defs : forall x, Forall2 same (map (attdef_event p l) defs) x -> x = map (attdef_event p l) defs.
Proof.
  induction defs as [|a defs IH]; intros x F; inversion F as [|? e ? r F1 F2]; subst; [reflexivity|]. cbn [map]. f_equal; [|auto].
  apply same_only in F1 as [F1|(n & t & m & m' & X & _)]; [exact F1|discriminate|exact I].
Qed.
Definition comment_data (es : list event) : list data := flat_map (fun e => match e with EComment t => [DComment t] | _ => [] end) es.

Lemma subset_shape m s ds es : subset E s ds es -> Forall in_subset_event es -> Forall (fun e => (value_len e < m)%nat) es ->
  forall es', Forall2 same es es' ->
  Forall (fit m) es' /\ flat_map evkeys es' = map enc (flat_map allkeys (singles ds)) /\ Forall kvalid (flat_map allkeys (singles ds)) /\
  (forall dd l, lists E es' dd l -> Forall2 (stands_for E) (singles ds) dd /\ l = comment_data es).
Proof.
  induction 1 as [|c s ds evs B Su IH|b b' s ds evs C Eo Su IH|t s ds evs C Su IH|t b x s ds evs C _ _ _ Su IH
    |b1 n b2 q lit v b3 s ds evs _ _ N _ _ Q L _ Su IH|b1 b0 n b2 q lit v b3 s ds evs _ _ _ _ N _ _ Q L _ Su IH
    |p l sp t mo s ds evs Pn Sf Dt La Mn Su IH|b1 p l b2 defs t s ds evs _ _ Pn _ _ Ad Su IH];
    intros Ev Vl es' Sm.
  - inversion Sm; subst. split; [constructor|]. split; [reflexivity|]. split; [constructor|]. intros dd l Ls. inversion Ls; subst. split; [constructor|reflexivity].
  - auto.
  - inversion Ev as [|? ? Ev1 Ev2]; inversion Vl as [|? ? Vl1 Vl2]; inversion Sm as [|? e ? r S1 S2]; subst.
    destruct (IH Ev2 Vl2 _ S2) as (A1 & A2 & A3 & A4).
    apply same_only in S1 as [->|(n' & t' & m1 & m2 & X & _)]; [|discriminate|exact I].
    split; [constructor; [exact I|exact A1]|]. split; [exact A2|]. split; [exact A3|]. intros dd l Ls. inversion Ls; subst.
    match goal with H : lists E _ _ _ |- _ => destruct (A4 _ _ H) as [B1 ->] end. auto.
  - inversion Ev; contradiction.
  - inversion Ev; contradiction.
  - inversion Ev as [|? ? Ev1 Ev2]; inversion Vl as [|? ? Vl1 Vl2]; inversion Sm as [|? e ? r S1 S2]; subst.
    destruct (IH Ev2 Vl2 _ S2) as (A1 & A2 & A3 & A4).
    apply same_only in S1 as [->|(n' & t' & m1 & m2 & X & _)]; [|discriminate|exact I].
    split; [constructor; [exact I|exact A1]|]. split; [cbn; f_equal; exact A2|]. split; [cbn; constructor; [apply (ncname_valid E), N|exact A3]|]. intros dd l Ls. inversion Ls; subst.
    match goal with H : lists E _ _ _ |- _ => destruct (A4 _ _ H) as [B1 ->] end. split; [|reflexivity].
    match goal with b : bool |- _ => destruct b; [discriminate|] end. change (singles (Doctype.DEntity false n v :: ds)) with (OneEntity false n v :: singles ds).
    constructor; [|exact B1]. apply (sf_entity E false). assumption.
  - inversion Ev as [|? ? Ev1 Ev2]; inversion Vl as [|? ? Vl1 Vl2]; inversion Sm as [|? e ? r S1 S2]; subst.
    destruct (IH Ev2 Vl2 _ S2) as (A1 & A2 & A3 & A4).
    apply same_only in S1 as [->|(n' & t' & m1 & m2 & X & _)]; [|discriminate|exact I].
    split; [constructor; [exact I|exact A1]|]. split; [cbn; f_equal; exact A2|]. split; [cbn; constructor; [apply (ncname_valid E), N|exact A3]|]. intros dd l Ls. inversion Ls; subst.
    match goal with H : lists E _ _ _ |- _ => destruct (A4 _ _ H) as [B1 ->] end. split; [|reflexivity].
    match goal with b : bool |- _ => destruct b; [|discriminate] end. change (singles (Doctype.DEntity true n v :: ds)) with (OneEntity true n v :: singles ds).
    constructor; [|exact B1]. apply (sf_entity E true). assumption.
  - inversion Ev as [|? ? Ev1 Ev2]; inversion Vl as [|? ? Vl1 Vl2]; inversion Sm as [|? e ? r S1 S2]; subst.
    destruct (IH Ev2 Vl2 _ S2) as (A1 & A2 & A3 & A4).
    assert (X : exists m', e = EElementDecl (utf8 (qname p l)) (spec_code sp) m' /\ (forall w, stored_lang (spec_code sp) m' w <-> spec_lang sp w) /\
      (m' = None <-> sp = Empty \/ sp = Any)).
    { apply same_only in S1 as [->|(n' & t' & m1 & m2 & X & -> & Y1 & Y2)]; [eauto| |exact I]. injection X as <- <- <-. exists m2.
      split; [reflexivity|]. split; [intros w; rewrite <- Y1; apply La|tauto]. }
    destruct X as (m' & -> & La' & Mn'). destruct Pn as [Qn _]. destruct (qvalid _ _ Qn) as (V1 & V2 & _).
    split; [|split; [|split]].
    + constructor; [|exact A1]. cbn [fit]. unfold content_fits. destruct m'; [|destruct (proj1 Mn' eq_refl) as [->| ->]; cbn; auto].
      destruct sp; cbn; auto; exfalso; [pose proof (proj2 Mn' (or_introl eq_refl)) as Y|pose proof (proj2 Mn' (or_intror eq_refl)) as Y]; discriminate Y.
    + cbn [flat_map evkeys ekeys]. rewrite (pname_split _ _ Qn), A2. reflexivity.
    + cbn. constructor; [split; assumption|exact A3].
    + intros dd l0 Ls. inversion Ls; subst. match goal with H : lists E _ _ _ |- _ => destruct (A4 _ _ H) as [B1 ->] end. split; [|reflexivity].
      match goal with H : prefix_local _ = _ |- _ => rewrite (pname_split _ _ Qn) in H; injection H as <- <- end.
      change (singles (DElement p l sp :: ds)) with (OneElement p l sp :: singles ds). constructor; [|exact B1]. constructor. exact La'.
  - apply Forall_app in Ev as [Ev1 Ev2]. apply Forall_app in Vl as [Vl1 Vl2]. apply Forall2_app_inv_l in Sm as (x & y & S1 & S2 & ->).
    destruct (IH Ev2 Vl2 _ S2) as (A1 & A2 & A3 & A4). apply same_atts in S1. subst x. destruct Pn as [Qn _]. destruct (qvalid _ _ Qn) as (_ & _ & V).
    apply attdefs_good in Ad. change (singles (DAttlist p l defs :: ds)) with (map (OneAttribute p l) defs ++ singles ds).
    clear - OK A1 A2 A3 A4 Ad V Vl1. induction Ad as [|a defs [Ga1 Ga2] Ad IH]; [auto|]. cbn [map app] in *. inversion Vl1 as [|? ? W1 W2]; subst.
    destruct (IH W2) as (B1 & B2 & B3 & B4). split; [|split; [|split]].
    + constructor; [|exact B1]. cbn [fit attdef_event]. split; [apply (ncname_single E OK), Ga1|]. split; [destruct (ad_type a); vm_compute; split; discriminate|].
      split; [exact Ga2|]. split; [exact W1|reflexivity].
    + cbn [flat_map evkeys ekeys attdef_event allkeys skeys app map enc]. rewrite B2. reflexivity.
    + cbn [flat_map allkeys skeys app]. constructor; [|exact B3]. split; [exact V|]. apply (ncname_valid E), Ga1.
    + intros dd l0 Ls. inversion Ls; subst. match goal with H : lists E _ _ _ |- _ => destruct (B4 _ _ H) as [C1 ->] end. split; [|reflexivity].
      constructor; [|exact C1]. constructor.
Qed.
End Shape.

(* ---- from the events to the nodes ---- *)
Definition misc_x (x : xnode) : Prop := match x with XComment _ | XPI _ _ => True | _ => False end.
Definition xdata (x : xnode) : data := match x with XPI t d => DPI t d | XComment t => DComment t | _ => DComment [] end.
Definition misc_ev (e : event) : Prop := match e with EComment _ | EProcessingInstruction _ _ => True | _ => False end.
Lemma misc_events E s evs : misc E s evs -> Forall misc_ev evs.
Proof. induction 1; auto; constructor; auto; exact I. Qed.
Lemma mirrors_misc evs xs : mirrors evs xs -> Forall misc_ev evs -> Forall misc_x xs.
Proof.
  induction 1 as [|tevs ts evs xs Ne F Ns M IH|t evs xs M IH|t d evs xs M IH|l pf u ns atts atts' body kids l' pf' u' evs xs Ma Nd M1 IH1 M2 IH2]; intros Fo.
  - constructor.
  - exfalso. destruct F as [|e t tevs ts He F]; [contradiction|]. inversion Fo; subst. destruct He as [->| ->]; contradiction.
  - inversion Fo; subst. constructor; [exact I|auto].
  - inversion Fo; subst. constructor; [exact I|auto].
  - inversion Fo. contradiction.
Qed.
Lemma misc_no_text xs : Forall misc_x xs -> no_text xs.
Proof. intros F s X. rewrite Forall_forall in F. exact (F _ X). Qed.
Lemma misc_xdata xs : Forall misc_x xs -> Forall misc_data (map xdata xs).
Proof. induction 1 as [|x xs Hx F IH]; constructor; [destruct x; try contradiction; exact I|exact IH]. Qed.
Lemma leaf_nodes h ks xs : Forall misc_x xs -> Forall2 (leafy h) ks (map xdata xs) -> Forall2 (node_is h) ks xs.
Proof.
  intros F. revert ks. induction F as [|x xs Hx F IH]; intros ks L; inversion L as [|k ? ks' ? [L1 L2] L3]; subst; constructor; [|auto].
  apply data_of_some in L1 as (c & Ec & Dc). destruct x; try contradiction; cbn [xdata] in *.
  - eapply ni_comment; eassumption.
  - destruct L2 as (c' & Ec' & P & _). rewrite Ec in Ec'. injection Ec' as <-. eapply ni_pi; [exact Ec|exact Dc|]. inversion P. reflexivity.
Qed.
Lemma laid_leafy h lo ks xs hi : wf h -> Forall misc_x xs -> laid h lo ks xs hi -> Forall2 (leafy h) ks (map xdata xs).
Proof.
  intros W F L. induction L as [|lo q m x ks xs hi H1 H2 H3 H4 IH]; [constructor|]. inversion F as [|? ? F1 F2]; subst. cbn [map]. constructor; [|auto].
  destruct H3 as [| |p c s Ec Dc|p c t d Ec Dc Fc]; try contradiction; (split; [unfold data_of; rewrite Ec; cbn; congruence|]); cbn [xdata]; [exact I|].
  eapply children_by_path; [apply wf_consistent, W|exact Ec|rewrite Dc; reflexivity|]. rewrite Fc. constructor.
Qed.
Lemma laid_nodes h lo ks xs hi : laid h lo ks xs hi -> Forall2 (node_is h) ks xs.
Proof.
  induction 1 as [|lo q m x ks xs hi H1 H2 H3 H4 IH]; constructor; [|exact IH]. eapply (proj1 (inside_is h _ _)), H3.
Qed.
Lemma decls_path h ps : forall o dd, TreeShape.path h o ps -> Forall2 (has h) ps dd -> decls_at h o dd.
Proof.
  induction ps as [|p ps IH]; intros o dd P F; inversion P as [|? c ? Ec P']; subst; inversion F as [|? x ? r F1 F2]; subst; [constructor|].
  unfold has, data_of in F1. rewrite Ec in F1. injection F1 as <-. econstructor; [exact Ec|]. apply IH; assumption.
Qed.
Lemma comment_nodes es : comment_data es = map xdata (comments es) /\ Forall misc_x (comments es).
Proof.
  induction es as [|e es [IH1 IH2]]; [split; [reflexivity|constructor]|]. unfold comment_data, comments in *. cbn [flat_map].
  rewrite map_app, IH1. split; [destruct e; reflexivity|]. apply Forall_app. split; [|exact IH2]. destruct e; repeat constructor.
Qed.

(* ---- events that say the same stand for the same nodes ---- *)
Lemma atts_tail a : forall b d d', mirrors_atts (a ++ d) b -> Forall (fun x => exists n q v, x = ADefault n q v) d -> Permutation d d' ->
  mirrors_atts (a ++ d') b.
Proof.
  induction a as [|x a IH]; intros b d d' M F P.
  - cbn [app] in *. assert (F' : Forall (fun x => exists n q v, x = ADefault n q v) d').
    { rewrite Forall_forall in *. intros y Hy. apply F. eapply Permutation_in; [apply Permutation_sym, P|exact Hy]. }
    assert (B : b = []).
    { clear - M F. induction F as [|x d (n & q & v & ->) F IH]; inversion M; subst; auto. }
    subst b. clear - F'. induction F' as [|x d (n & q & v & ->) F IH]; constructor. exact IH.
  - cbn [app] in *. inversion M; subst; constructor; eauto.
Qed.
Lemma same_text_ev e e' t : text_event e t -> same e e' -> text_event e' t.
Proof. intros [->| ->] H; inversion H; subst; [left|right|right]; reflexivity. Qed.
Lemma same_text_back e e' t : text_event e' t -> same e e' -> text_event e t.
Proof. intros [->| ->] H; inversion H; subst; [left|right|left]; reflexivity. Qed.
Lemma mirrors_say evs xs : mirrors evs xs -> forall evs', Forall2 same evs evs' -> mirrors evs' xs.
Proof.
  induction 1 as [|tevs ts evs xs Ne F Ns M IH|t evs xs M IH|t d evs xs M IH|l pf u ns atts atts' body kids l' pf' u' evs xs Ma Nd M1 IH1 M2 IH2];
    intros evs' H.
  - inversion H; subst. constructor.
  - apply Forall2_app_inv_l in H as (a & b & Ha & Hb & ->). apply mi_text.
    + intros ->. inversion Ha; subst. contradiction.
    + clear - F Ha. revert a Ha. induction F as [|e t tevs ts He F IH]; intros a Ha; inversion Ha; subst; constructor; eauto using same_text_ev.
    + intros (e & t & r & -> & He). inversion Hb as [|e0 ? r0 ? H1 H2]; subst. apply Ns. exists e0, t, r0. eauto using same_text_back.
    + auto.
  - inversion H as [|? e ? r H1 H2]; subst. inversion H1; subst. constructor. auto.
  - inversion H as [|? e ? r H1 H2]; subst. inversion H1; subst. constructor. auto.
  - inversion H as [|? e ? r H1 H2]; subst.
    apply Forall2_app_inv_l in H2 as (a & b & Ha & Hb & ->). inversion Hb as [|? e2 ? r H3 H4]; subst.
    inversion H3; subst. inversion H1 as [|? ? ?|lo po uo no ao do do' Fd Pd|]; subst.
    + constructor; auto.
    + constructor; auto. eapply atts_tail; eassumption.
Qed.
Lemma short_say n evs evs' : Forall2 same evs evs' -> short n evs -> short n evs'.
Proof.
  intros F S l pf u ns atts a b w H Hw.
  assert (X : exists atts0, In (EStartElement l pf u ns atts0) evs /\ In (AAttr a b w) atts0).
  { clear - F H Hw. induction F as [|e e' evs evs' H1 H2 IH]; [destruct H|]. destruct H as [->|H].
    - inversion H1 as [|? ? ?|lo po uo no ao do do' Fd Pd|]; subst; [eexists; split; [left; reflexivity|exact Hw]|].
      eexists. split; [left; reflexivity|]. apply in_app_iff in Hw as [Hw|Hw]; apply in_app_iff; [left; exact Hw|right].
      eapply Permutation_in; [apply Permutation_sym, Pd|exact Hw].
    - destruct (IH H) as (x & X1 & X2). exists x. split; [right; exact X1|exact X2]. }
  destruct X as (atts0 & X1 & X2). eapply S; eassumption.
Qed.
Lemma mirrors_plain evs xs : mirrors evs xs -> Forall (fun e => match e with EReference _ | EInternalSubset _ _ _ | EExternalSubset _ _ _ => False | _ => True end) evs.
Proof.
  induction 1 as [|tevs ts evs xs Ne F Ns M IH|t evs xs M IH|t d evs xs M IH|l pf u ns atts atts' body kids l' pf' u' evs xs Ma Nd M1 IH1 M2 IH2].
  - constructor.
  - apply Forall_app. split; [|exact IH]. clear - F. induction F as [|e t tevs ts [->| ->] F IH]; constructor; auto.
  - constructor; auto.
  - constructor; auto.
  - constructor; [exact I|]. apply Forall_app. split; [exact IH1|]. constructor; [exact I|exact IH2].
Qed.

(* ---- taking the events apart ---- *)
Lemma first_split {A} (f : A -> Prop) a x b : forall a' x' b', a ++ x :: b = a' ++ x' :: b' -> f x -> f x' ->
  Forall (fun y => ~ f y) a -> Forall (fun y => ~ f y) a' -> a = a' /\ x = x' /\ b = b'.
Proof.
  induction a as [|y a IH]; intros a' x' b' H Fx Fx' Fa Fa'; destruct a' as [|y' a']; cbn [app] in H; injection H as H1 H2.
  - auto.
  - subst. inversion Fa'; contradiction.
  - subst. inversion Fa; contradiction.
  - subst. inversion Fa; inversion Fa'; subst. destruct (IH _ _ _ H2 Fx Fx') as (-> & -> & ->); auto.
Qed.
Definition is_int (e : event) : Prop := match e with EInternalSubset _ _ _ => True | _ => False end.
Definition is_ext (e : event) : Prop := match e with EExternalSubset _ _ _ => True | _ => False end.
Lemma subset_events E s ds es : subset E s ds es -> Forall (fun e => ~ is_ext e) es.
Proof.
  induction 1; auto; try (constructor; auto; intros []). apply Forall_app. split; [|assumption]. apply Forall_forall. intros e He.
  apply in_map_iff in He as (a & <- & _). intros [].
Qed.
Lemma doctype_subset E x0 ds name es : doctype E x0 ds (EInternalSubset name [] [] :: es ++ [EExternalSubset name [] []]) -> exists s, subset E s ds es.
Proof.
  intros H. remember (EInternalSubset name [] [] :: es ++ [EExternalSubset name [] []]) as l eqn:El. destruct H.
  - injection El as _ El. destruct es as [|e [|e' es]]; cbn in El; try discriminate. exists []. constructor.
  - injection El as _ El. apply app_inj_tail in El as [-> _]. eauto.
Qed.
Lemma path_head E k m v g e l g' : DoctypeContent.path E k (guardH m) v g (e :: l) g' -> (forall n, ~ In (EReference n) (e :: l)) ->
  match e with EEntityDecl _ _ _ _ _ | EAttributeDecl _ _ _ _ _ _ => False | _ => True end ->
  DoctypeContent.path E k (guardH m) v (fst (h_event (guardH m) g v e)) l g'.
Proof.
  intros P Nr He. remember (e :: l) as l0 eqn:El. destruct P; try discriminate.
  - injection El as -> ->. assumption.
  - injection El as <- _. contradiction.
  - injection El as <- _. contradiction.
  - exfalso. apply (Nr n). apply in_elt.
Qed.

Lemma fit_no_reference m es : Forall (fit m) es -> forall n, ~ In (EReference n) es.
Proof. intros F n X. rewrite Forall_forall in F. exact (F _ X). Qed.

Lemma answers E h d dtd vs en sa nm t ps dd l : data_of h d = Some (DDoc vs en sa (Some dtd) None) -> data_of h dtd = Some (DDtd nm [] [] t) ->
  found t ps dd -> Forall2 (has h) ps dd -> Forall2 (stands_for E) l dd -> Forall2 (answered h d) l dd.
Proof.
  intros D N F H S. revert ps F H. induction S as [|s x l dd Hs S IH]; intros ps F H; [constructor|].
  inversion F as [|p ? ps' ? F1 F2]; subst. inversion H as [|? ? ? ? H1 H2]; subst. constructor; [|eauto]. apply data_of_some in H1 as (cp & Ep & Dp). exists p, cp. split; [|auto].
  pose proof (getDoc_run _ _ _ _ _ _ _ D) as Rd. apply data_of_some in N as (c & Ec & Dc). pose proof (getDtd_run _ _ _ _ _ _ _ Ec Dc) as Rt.
  destruct Hs as [b n v lit|p' l' sp mo|p' l' a].
  - destruct b; cbn [look]; unfold GetEntity, GetParameterEntity, deref; rewrite (hbind_ret _ _ _ d _ eq_refl), (hbind_ret _ _ _ _ _ Rd); cbv beta iota;
      unfold LookupEntity, LookupParameterEntity; rewrite (hbind_ret _ _ _ _ _ Rt); unfold hret; cbn [snd];
      [change (tget (t_pents t) (utf8 n) = Some p) in F1|change (tget (t_ents t) (utf8 n) = Some p) in F1]; rewrite F1; reflexivity.
  - cbn [look]. rewrite (hbind_ret _ _ _ _ _ Rd). cbv beta iota. unfold deref. rewrite (hbind_ret _ _ _ dtd _ eq_refl). unfold LookupElement.
    rewrite (hbind_ret _ _ _ _ _ Rt). unfold hret. cbn [snd]. cbn [entry] in F1. rewrite F1. reflexivity.
  - cbn [look]. rewrite (hbind_ret _ _ _ _ _ Rd). cbv beta iota. unfold deref. rewrite (hbind_ret _ _ _ dtd _ eq_refl). unfold LookupAttribute.
    rewrite (hbind_ret _ _ _ _ _ Rt). unfold hret. cbn [snd]. cbn [entry] in F1. rewrite F1. reflexivity.
Qed.
Theorem document_tree E src i ds evs d xs1 name xs2 m : env_ok E -> ddocument E src i ds evs d -> declared_once evs d ->
  dmirrors evs xs1 name xs2 -> no_text xs2 -> elements_once ds -> (evs_len evs < m)%nat -> Forall (fun e => (value_len e < m)%nat) evs ->
  exists N, forall bom n, bom_ok bom -> (N <= n)%nat ->
  exists s' p dd, Parse E tb (treeH m) n tb_init (bom ++ utf8 src) = (Ret tt, s') /\ tb_doc (hs s') = Some p /\ wf (tb_heap (hs s')) /\
    document_has (tb_heap (hs s')) p (di_version i) (match di_encoding i with Some e => e | None => [] end) (sa_code (di_standalone i)) xs1 name dd xs2 /\
    Forall2 (stands_for E) (singles ds) dd /\ (parameters_once ds -> Forall2 (answered (tb_heap (hs s')) p) (singles ds) dd).
Proof.
  intros OK D Once M Nt Eo Hm Hv.
  assert (Hfine : fine ds) by (destruct D; assumption).
  destruct (ddocument_runs E OK gst (guardH m) g_known (guard_remembers m) src i ds evs d D Once)
    as (N & m1 & x0 & m2 & x & m3 & e1 & nm & es & e3 & e4 & e5 & Me1 & Dt & Me3 & De4 & Me5 & Ev & Run).
  destruct (doctype_subset _ _ _ _ _ Dt) as (ss & Su).
  destruct M as [a1 name' as1 a2 xs1 xs3 Ma1 Sa Ma2]. rewrite Ev in *.
  (* the two ways to take the events apart agree *)
  cbn [app] in Ev. rewrite <- !app_assoc in Ev.
  pose proof (misc_events _ _ _ Me1) as Fe1. pose proof (mirrors_plain _ _ Ma1) as Fa1.
  destruct (first_split is_int _ _ _ _ _ _ Ev I I) as (-> & X2 & X3).
  { eapply Forall_impl; [|exact Fa1]. intros [] K J; contradiction. }
  { eapply Forall_impl; [|exact Fe1]. intros [] K J; contradiction. }
  injection X2 as ->. cbn [app] in X3.
  destruct (first_split is_ext _ _ _ _ _ _ X3 I I) as (-> & X5 & ->).
  { eapply Forall_impl; [|exact Sa]. intros [] K J; contradiction. }
  { eapply subset_events, Su. }
  clear X3 X5 Ev. exists N. intros bom n Hb Hn.
  destruct (Run bom n (Gs tb_init [] false) Hb Hn (fun _ _ => eq_refl))
    as (g0 & g1 & g2 & g3 & es' & e4' & s' & Fes & Fe4 & Ps & _ & P0 & P1 & P2 & P3 & P4).
  clear Run.
  assert (Ve : Forall (fun e => (value_len e < m)%nat) es).
  { rewrite Forall_forall in *. intros e He. apply Hv. apply in_or_app. right. apply in_or_app. left. right. apply in_or_app. left. exact He. }
  assert (Sh : short m (e3 ++ e4 ++ e5)).
  { apply evs_short in Hm. intros l pf u ns atts a b w Hi. apply (Hm l pf u ns atts). apply in_or_app. right. apply in_or_app. right. exact Hi. }
  assert (Sh1 : short m e1).
  { apply evs_short in Hm. intros l pf u ns atts a b w Hi. apply (Hm l pf u ns atts). apply in_or_app. left. exact Hi. }
  destruct (subset_shape E OK m ss ds es Su Sa Ve es' Fes) as (Ft & Ke & Kv & Sf).
  assert (Nx1 : Forall misc_x xs1) by (eapply mirrors_misc; eassumption).
  assert (Nr1 : forall y, ~ In (EReference y) e1).
  { intros y Hy. rewrite Forall_forall in Fe1. exact (Fe1 _ Hy). }
  (* before the declaration *)
  destruct (guard_feed E m _ _ _ _ P0) with (s' := tb_init) as [T0 D0]; [intros y [Hy|[]]; discriminate|reflexivity|].
  destruct (level_doc (v_version (docview i)) (v_encoding (docview i)) (v_standalone (docview i))) as [LV Kd].
  set (h := with_new _ _) in *. set (s := {| tb_heap := h; tb_doc := Some 1%positive; tb_elem := None |}).
  assert (Vi : v_inSubset (docview i) <> 1 /\ v_inSubset (docview i) <> 2) by (split; discriminate).
  destruct (XmlTree.build m (docview i) Vi e1 xs1 Ma1 s 1%positive []) as (h1 & ks & R & LV' & K & La); cbn [tb_heap tb_doc tb_elem s] in *.
  { split; [discriminate|]. cbn. auto. }
  { exact LV. }
  { intros _ (z & Z & _). discriminate. }
  { intros _. apply misc_no_text, Nx1. }
  { exact Sh1. }
  destruct (guard_feed E m _ _ _ _ P1) with (s' := with_heap h1 s) as [T1 D1].
  { intros y [Hy|Hy]; [discriminate|exact (Nr1 _ Hy)]. }
  { rewrite T0. change (EStartDocument :: e1) with ([EStartDocument] ++ e1). rewrite feed_app.
    change (feed m (docview i) tb_init [EStartDocument]) with (Some s). exact R. }
  cbn [app] in LV'.
  assert (E0 : hget h 1%positive = Some {| lk := nolinks; owner := None; dat := DDoc (v_version (docview i)) (v_encoding (docview i)) (v_standalone (docview i)) None None |})
    by reflexivity.
  destruct (k_par _ _ _ _ K _ E0) as (c1 & Ec1 & Dc1 & Pc1 & _). cbn [dat lk nolinks l_par] in Dc1, Pc1.
  (* the internal subset *)
  assert (Is1 : in_subset 1%positive (with_heap h1 s)) by (split; reflexivity).
  destruct (under_start m (view_in (docview i) 1) (with_heap h1 s) 1%positive (v_version (docview i)) (v_encoding (docview i)) (v_standalone (docview i))
              ks (map xdata xs1) nm Is1) as (dtd & h2 & R2 & U2).
  { apply LV'. }
  { unfold parent_of. cbn [tb_heap with_heap]. rewrite Ec1. exact Pc1. }
  { unfold data_of. cbn [tb_heap with_heap]. rewrite Ec1. cbn. f_equal. exact Dc1. }
  { apply LV'. }
  { eapply laid_leafy; [apply LV'|exact Nx1|exact La]. }
  { apply misc_xdata, Nx1. }
  apply path_head in P2; [|intros y [Hy|Hy]; [discriminate|exact (fit_no_reference _ _ Ft _ Hy)]|exact I].
  rewrite <- T1 in R2. destruct (guard_event m _ g1 _ _ R2) as (st & Hg & _). rewrite Hg, T1 in P2.
  destruct (under_subset 1%positive dtd _ _ _ nm E m _ _ _ _ P2 eq_refl Ft _ _ _ _ _ _ _ (in_subset_heap _ _ h2 Is1) U2)
    as (t3 & k2 & ps & dd & l2 & Is3 & D3 & U3 & Ls & Fd).
  { constructor. }
  { cbn [flat_map app]. rewrite ekeys_filter, Ke, enc_filter, <- skeys_filter. apply nodup_enc; [|apply nodup_skeys; assumption].
    rewrite skeys_filter. rewrite Forall_forall in *. intros k Hk. apply filter_In in Hk as [Hk _]. auto. }
  cbn [app g_dirty] in U3, D3. destruct (Sf _ _ Ls) as [Sf1 ->]. destruct (comment_nodes es) as [Cn Cx]. rewrite Cn in *.
  (* the end of the declaration *)
  destruct (guard_feed E m _ _ _ _ P3) with (s' := g_tb g2) as [T3 D4]; [intros y [Hy|[]]; discriminate|clear; destruct (g_tb g2); reflexivity|].
  (* the rest *)
  assert (F3 : Forall2 same (e3 ++ e4 ++ e5) (e3 ++ e4' ++ e5)).
  { apply Forall2_app; [apply DoctypeContent.same_refl|]. apply Forall2_app; [exact Fe4|apply DoctypeContent.same_refl]. }
  pose proof (mirrors_say _ _ Ma2 _ F3) as Ma3. pose proof (short_say _ _ _ F3 Sh) as Sh3.
  assert (Nt3 : no_text xs3) by (intros y Hy; apply (Nt y), in_or_app; right; exact Hy).
  destruct (XmlTree.build m (docview i) Vi _ xs3 Ma3 (g_tb g2) 1%positive (ks ++ dtd :: k2)) as (h4 & ks4 & R4 & LV4 & K4 & La4).
  { split; [rewrite (proj1 Is3); discriminate|]. rewrite (proj2 Is3). split; [apply Is3|]. unfold kind. rewrite (u_doc _ _ _ _ _ _ _ _ _ _ _ _ _ _ U3). reflexivity. }
  { eapply under_level, U3. }
  { intros (e & y & r & X & He) _. rewrite X in Ma3. inversion Ma3; subst; try (destruct He as [He|He]; discriminate He).
    eapply Nt3. left. reflexivity. }
  { intros _. exact Nt3. }
  { exact Sh3. }
  destruct (guard_feed E m _ _ _ _ P4) with (s' := with_heap h4 (g_tb g2)) as [T5 D5].
  { intros y Hy. rewrite !app_assoc in Hy. apply in_app_or in Hy as [Hy|[Hy|[]]]; [|discriminate]. rewrite <- app_assoc in Hy.
    pose proof (mirrors_plain _ _ Ma3) as Fp. rewrite Forall_forall in Fp. exact (Fp _ Hy). }
  { rewrite T3. rewrite !app_assoc, <- (app_assoc e3), feed_app, R4. reflexivity. }
  destruct (clean_parse E m n _ s' Ps) as (s2 & Ps2 & Hs2).
  { rewrite D5, D4, D3, D1, D0. reflexivity. }
  exists s2, 1%positive, dd. split; [exact Ps2|]. rewrite Hs2, T5. cbn [with_heap tb_doc tb_heap].
  split; [apply Is3|]. split; [apply LV4|].
  pose proof (under_kept _ _ _ _ _ _ _ _ _ _ _ _ _ _ _ U3 K4 (lv_wf _ _ _ LV4)) as [Q1 Q2 Q3 Q4 Q5 Q6 Q7 Q8 Q9].
  destruct (lv_ch _ _ _ LV4) as (cd & Ecd & Pcd & _). pose proof Q5 as (ct & Ect & Pct & _).
  split; [|split; [exact Sf1|]; intros Po; eapply answers; [exact Q2|exact Q3| |exact Q6|exact Sf1];
    apply Fd; [constructor|]; cbn [flat_map app]; rewrite Ke; apply nodup_enc; [exact Kv|apply nodup_allkeys; assumption]].
  exists cd, dtd, ct, t3, ks, (k2 ++ ks4). split; [exact Ecd|]. split.
  { unfold data_of in Q2. rewrite Ecd in Q2. injection Q2 as Q2. exact Q2. }
  split; [rewrite <- app_assoc in Pcd; exact Pcd|]. split; [apply leaf_nodes; assumption|]. split.
  { apply Forall2_app; [apply leaf_nodes; assumption|]. eapply laid_nodes, La4. }
  split; [exact Ect|]. split; [unfold data_of in Q3; rewrite Ect in Q3; injection Q3 as Q3; exact Q3|].
  eapply decls_path; eassumption.
Qed.

Lemma document_nodes E src i ds evs d xs1 name xs2 m : env_ok E -> ddocument E src i ds evs d -> declared_once evs d ->
  dmirrors evs xs1 name xs2 -> no_text xs2 -> elements_once ds -> (evs_len evs < m)%nat -> Forall (fun e => (value_len e < m)%nat) evs ->
  exists N, forall bom n, bom_ok bom -> (N <= n)%nat ->
  exists s' p dd, Parse E tb (treeH m) n tb_init (bom ++ utf8 src) = (Ret tt, s') /\ tb_doc (hs s') = Some p /\
    document_has (tb_heap (hs s')) p (di_version i) (match di_encoding i with Some e => e | None => [] end) (sa_code (di_standalone i)) xs1 name dd xs2 /\
    Forall2 (stands_for E) (singles ds) dd.
Proof.
  intros OK D O M Nt Eo Hm Hv. destruct (document_tree E src i ds evs d xs1 name xs2 m OK D O M Nt Eo Hm Hv) as (N & P). exists N.
  intros bom n Hb Hn. destruct (P bom n Hb Hn) as (s' & p & dd & P1 & P2 & _ & P3 & P4 & _). exists s', p, dd. auto.
Qed.
Lemma document_answers E src i ds evs d xs1 name xs2 m : env_ok E -> ddocument E src i ds evs d -> declared_once evs d ->
  dmirrors evs xs1 name xs2 -> no_text xs2 -> elements_once ds -> parameters_once ds -> (evs_len evs < m)%nat ->
  Forall (fun e => (value_len e < m)%nat) evs ->
  exists N, forall bom n, bom_ok bom -> (N <= n)%nat ->
  exists s' p dd, Parse E tb (treeH m) n tb_init (bom ++ utf8 src) = (Ret tt, s') /\ tb_doc (hs s') = Some p /\
    Forall2 (stands_for E) (singles ds) dd /\ Forall2 (answered (tb_heap (hs s')) p) (singles ds) dd.
Proof.
  intros OK D O M Nt Eo Po Hm Hv. destruct (document_tree E src i ds evs d xs1 name xs2 m OK D O M Nt Eo Hm Hv) as (N & P). exists N.
  intros bom n Hb Hn. destruct (P bom n Hb Hn) as (s' & p & dd & P1 & P2 & _ & _ & P4 & P5). exists s', p, dd. auto.
Qed.

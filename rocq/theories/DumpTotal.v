(* The serialiser ends without panic on every tree of a consistent heap.
   /repo/dump.go:197-738, Dump.v. *)
From Coq Require Import FMapPositive Permutation.
From Verif Require Import Base Utf8 Escape Scan DeclRight Heap Dump TreeShape TreeOps Forest ForestOps History TreeCalls TreeRead TreeOwner Retire Xml XmlDump.
From Coq Require Import ZifyBool.
Local Open Scope Z_scope.

(* ---- the specification ---- *)
(* both parts of every sequence and choice are there *)
Fixpoint complete (e : econt) : Prop :=
  match e with
  | EC ct _ _ _ c1 c2 =>
      match c1 with Some a => complete a | None => ct <> ctSeq /\ ct <> ctOr end /\
      match c2 with Some b => complete b | None => ct <> ctSeq /\ ct <> ctOr end
  end.
(* data over which the serialiser does not panic *)
Definition bearable (d : data) : Prop :=
  match d with
  | DText s => s <> s_ "textnoenc"
  | DElemDecl _ _ _ (Some e) => complete e
  | _ => True
  end.
(* declarations for which it has a syntax *)
Definition has_syntax (d : data) : Prop :=
  match d with
  | DElemDecl _ _ typ content =>
      In typ [EmptyElementType; AnyElementType; MixedElementType; ElementElementType] /\ match content with Some e => known e | None => True end
  | DAttrDecl _ _ _ atype def _ _ =>
      In atype [AttrCDATA; AttrID; AttrIDRef; AttrIDRefs; AttrEntity; AttrNmtoken; AttrNmtokens; AttrEnumeration; AttrNotation] /\ In def [1; 2; 3; 4]
  | DEntity _ typ _ _ _ _ => In typ [1; 2; 3; 4; 5]
  | _ => True
  end.

(* ---- proofs ---- *)
(* an outcome that is there, and no error if b *)
Definition fine (b : Prop) {A} (r : outcome herr A) : Prop := match r with Ret _ => True | Fail _ => ~ b | _ => False end.
Lemma fine_bind b A B (r : outcome herr A) (f : A -> outcome herr B) : fine b r -> (forall a, fine b (f a)) -> fine b (obind r f).
Proof. intros H G. destruct r; cbn in *; auto. Qed.

Lemma content_fine (b : Prop) : forall e glob, complete e -> (b -> known e) -> fine b (dumpElementContent e glob).
Proof.
  fix IH 1. intros [ct oc name prefix c1 c2] glob H K. cbn [complete known] in *. destruct H as [H1 H2].
  assert (S : forall (op : str) (isOr : bool), ct = ctSeq \/ ct = ctOr -> fine b
    match c1 with
    | None => Pan
    | Some a =>
        obind (dumpElementContent a ((ec_type a =? ctOr) || (ec_type a =? ctSeq))) (fun x =>
        match c2 with
        | None => Pan
        | Some b0 =>
            obind (dumpElementContent b0
                     (if isOr then (ec_type b0 =? ctSeq) || ((ec_type b0 =? ctOr) && negb (ec_occur b0 =? ocOnce))
                      else (ec_type b0 =? ctOr) || ((ec_type b0 =? ctSeq) && negb (ec_occur b0 =? ocOnce)))) (fun y =>
            Ret (x ++ op ++ y : str))
        end)
    end).
  { intros op isOr D. destruct c1 as [a|]; [|exfalso; destruct D; tauto]. destruct c2 as [b0|]; [|exfalso; destruct D; tauto].
    apply fine_bind; [apply IH; [exact H1|intro X; apply K in X; apply X]|]. intros x.
    apply fine_bind; [apply IH; [exact H2|intro X; apply K in X; apply X]|]. intros y. exact I. }
  cbn [dumpElementContent]. apply fine_bind; [|intros; exact I].
  destruct (Z.eqb_spec ct ctPCDATA) as [|N1]; [exact I|]. destruct (Z.eqb_spec ct ctElement) as [|N2]; [exact I|].
  destruct (Z.eqb_spec ct ctSeq) as [E|N3]; [apply (S _ false); auto|]. destruct (Z.eqb_spec ct ctOr) as [E|N4]; [apply (S _ true); auto|].
  intro X. apply K in X as (X & _). cbn [In] in X. intuition congruence.
Qed.

Lemma elem_decl_fine (b : Prop) name prefix typ content : match content with Some e => complete e | None => True end ->
  (b -> has_syntax (DElemDecl name prefix typ content)) -> fine b (dumpElementDecl name prefix typ content).
Proof.
  intros H K. unfold dumpElementDecl. destruct (Z.eqb_spec typ EmptyElementType) as [|N1]; [exact I|]. destruct (Z.eqb_spec typ AnyElementType) as [|N2]; [exact I|].
  destruct ((typ =? MixedElementType) || (typ =? ElementElementType)) eqn:N3.
  - apply fine_bind; [|intros; exact I]. destruct content as [e|]; [|exact I]. apply content_fine; [exact H|]. intro X. apply K in X. apply X.
  - intro X. apply K in X as (X & _). cbn [In] in X. unfold EmptyElementType, AnyElementType, MixedElementType, ElementElementType in *. lia.
Qed.
Lemma attr_decl_fine (b : Prop) elem name prefix atype def value enum :
  (b -> has_syntax (DAttrDecl elem name prefix atype def value enum)) -> fine b (dumpAttributeDecl elem name prefix atype def value enum).
Proof.
  intros K. unfold dumpAttributeDecl. cbn [has_syntax] in K. apply fine_bind.
  - repeat match goal with |- fine b (if ?x =? ?y then _ else _) => destruct (Z.eqb_spec x y) as [|?]; [exact I|] end.
    intro X. apply K in X as [X _]. cbn [In] in X. intuition congruence.
  - intros t. apply fine_bind; [|intros; exact I].
    repeat match goal with |- fine b (if ?x =? ?y then _ else _) => destruct (Z.eqb_spec x y) as [|?]; [exact I|] end.
    intro X. apply K in X as [_ X]. cbn [In] in X. intuition congruence.
Qed.
Lemma entity_decl_fine (b : Prop) name typ ext sys content orig :
  (b -> has_syntax (DEntity name typ ext sys content orig)) -> fine b (dumpEntityDecl name typ ext sys content orig).
Proof.
  intros K. unfold dumpEntityDecl. cbn [has_syntax] in K. cbv zeta. destruct (Z.eqb_spec typ 1) as [|N1]; [exact I|].
  destruct ((typ =? 2) || (typ =? 3)) eqn:N2; [exact I|]. destruct (Z.eqb_spec typ 4) as [|N4]; [exact I|]. destruct (Z.eqb_spec typ 5) as [|N5]; [exact I|].
  intro X. apply K in X. cbn [In] in X. lia.
Qed.

Section Heap.
Variable h : heap.
Variable b : Prop.
Lemma dumpNode_eq n p : dumpNode h (S n) p =
      match hget h p with
      | None => Pan
      | Some c =>
          match dat c with
          | DDoc v e s _ _ => Ret (dumpDocContent v e s)
          | DDtd name ext sys t =>
              if no_decls t then Ret (dumpDTDHead name ext sys ++ s_ ">")
              else obind (dumpNodes h n (l_first (lk c))) (fun s =>
                   Ret (dumpDTDHead name ext sys ++ s_ "[" ++ [10] ++ s ++ s_ "]>"))
          | DComment s => Ret (s_ "<!--" ++ s ++ s_ "-->")
          | DRef name => Ret (s_ "&" ++ name ++ s_ ";")
          | DText s => if str_eqb s XMLTextNoEnc then Pan else Ret (escapeText s false)
          | DElemDecl name prefix typ content => dumpElementDecl name prefix typ content
          | DAttrDecl elem name prefix atype def value enum =>
              dumpAttributeDecl elem name prefix atype def value enum
          | DEntity name typ ext sys content orig => dumpEntityDecl name typ ext sys content orig
          | DElem name ns defs props =>
              let full := nameOf (dat c) in
              obind (dumpAttrs h n props) (fun a =>
              let head := s_ "<" ++ full ++ flat_map dumpNs defs ++ a in
              match l_first (lk c) with
              | None => Ret (head ++ s_ "/>")
              | Some k =>
                  obind (dumpNodes h n (Some k)) (fun s =>
                  Ret (head ++ s_ ">" ++ s ++ s_ "</" ++ full ++ s_ ">"))
              end)
          | DPI _ _ | DAttr _ _ =>
              obind (dumpNodes h n (l_first (lk c))) (fun s =>
              Ret (s_ "<" ++ nameOf (dat c) ++ s_ ">" ++ s ++ s_ "</" ++ nameOf (dat c) ++ s_ ">"))
          end
      end.
Proof. reflexivity. Qed.
Lemma dumpNodes_eq n p : dumpNodes h (S n) (Some p) =
  obind (dumpNode h n p) (fun s => match hget h p with None => Pan | Some c => obind (dumpNodes h n (l_next (lk c))) (fun r => Ret (s ++ r)) end).
Proof. reflexivity. Qed.
Lemma dumpNodes_none n : dumpNodes h n None = Ret [].
Proof. destruct n; reflexivity. Qed.
Lemma dumpAttrs_eq n a : dumpAttrs h (S n) (Some a) =
  match hget h a with
  | None => Pan
  | Some c => match dat c with
              | DAttr name _ => obind (dumpAttrKids h n (l_first (lk c))) (fun v => obind (dumpAttrs h n (l_next (lk c))) (fun r =>
                  Ret (s_ " " ++ name ++ s_ "=""" ++ v ++ s_ """" ++ r)))
              | _ => Pan
              end
  end.
Proof. reflexivity. Qed.
Lemma dumpAttrKids_eq n p : dumpAttrKids h (S n) (Some p) =
  match hget h p with
  | None => Pan
  | Some c =>
      obind (match dat c with DText s => Ret (escapeAttrValue s) | _ => match dumpNode h n p with Fail _ => Ret [] | r => r end end) (fun s =>
      obind (dumpAttrKids h n (l_next (lk c))) (fun r => Ret (s ++ r)))
  end.
Proof. reflexivity. Qed.

Lemma value_fine a : forall ks pv n, vchain h a pv ks -> (List.length ks <= n)%nat -> fine b (dumpAttrKids h n (hd_error ks)).
Proof.
  induction ks as [|k r IH]; intros pv n V L; cbn [hd_error]; [destruct n; exact I|]. destruct n as [|n]; [cbn in L; lia|].
  cbn [vchain] in V. destruct V as [(c & E & Lc & s & D) V]. rewrite dumpAttrKids_eq, E, D. cbn [obind].
  apply fine_bind; [|intros; exact I]. rewrite Lc. cbn [l_next]. eapply IH; [exact V|cbn in L; lia].
Qed.
Lemma attrs_fine : forall l pv n, achain h pv l -> (List.length (attptrs l) <= n)%nat -> fine b (dumpAttrs h n (hd_error (map fst l))).
Proof.
  induction l as [|[a ks] r IH]; intros pv n V L; cbn [map hd_error fst]; [destruct n; exact I|].
  change (attptrs ((a, ks) :: r)) with (a :: ks ++ attptrs r) in L. cbn [List.length] in L. rewrite app_length in L. destruct n as [|n]; [lia|].
  cbn [achain] in V. destruct V as [(c & E & Lc & nm & df & D) [Vk V]]. rewrite dumpAttrs_eq, E, D, Lc. cbn [l_first l_next].
  apply fine_bind; [eapply value_fine; [exact Vk|lia]|]. intros v. apply fine_bind; [|intros; exact I]. eapply IH; [exact V|lia].
Qed.

Definition friendly (x : ptr) : Prop := forall d, data_of h x = Some d -> bearable d /\ (b -> has_syntax d).
Lemma nodes_fine par : forall k,
  Forall (fun t => forall par pv nx n, linked h par pv nx t -> Forall friendly (nodes t) -> (2 * List.length (ptrs t) <= n)%nat -> fine b (dumpNode h n (root t))) k ->
  forall pv n, linkeds h par pv None k -> Forall friendly (flat_map nodes k) -> (2 * List.length (flat_map ptrs k) < n)%nat -> fine b (dumpNodes h n (hd_error (map root k))).
Proof.
  induction k as [|t r IHr]; intros IH pv n L F B; cbn [map hd_error]; [rewrite dumpNodes_none; exact I|].
  inversion IH as [|? ? I1 I2]; subst. cbn [linkeds] in L. destruct L as [L1 L2]. cbn [flat_map] in *. rewrite app_length in B. apply Forall_app in F as [F1 F2].
  destruct n as [|n]; [lia|]. rewrite dumpNodes_eq. apply fine_bind; [eapply I1; [exact L1|exact F1|lia]|]. intros s.
  assert (P : (0 < List.length (ptrs t))%nat) by (destruct t; cbn; lia).
  destruct t as [p a k]. pose proof L1 as L1'. apply linked_eq in L1' as [(c & E & Lc & _) _]. cbn [root]. rewrite E, Lc. cbn [l_next].
  apply fine_bind; [|intros; exact I]. rewrite hdo_none. eapply IHr; [exact I2|exact L2|exact F2|lia].
Qed.
Lemma tree_fine : forall t par pv nx n, linked h par pv nx t -> Forall friendly (nodes t) -> (2 * List.length (ptrs t) <= n)%nat -> fine b (dumpNode h n (root t)).
Proof.
  induction t as [p a k IH] using ltree_ind'. intros par pv nx n L F B. cbn [nodes ptrs List.length] in *. rewrite app_length in B.
  destruct n as [|n]; [lia|]. apply linked_eq in L as [(c & E & Lc & Pr) K]. inversion F as [|? ? F1 F2]; subst.
  assert (Kf : fine b (dumpNodes h n (l_first (lk c)))).
  { rewrite Lc. cbn [l_first]. eapply nodes_fine; [exact IH|exact K|exact F2|lia]. }
  assert (Fp : bearable (dat c) /\ (b -> has_syntax (dat c))) by (apply F1; unfold data_of; rewrite E; reflexivity).
  cbn [root]. rewrite dumpNode_eq, E. destruct (dat c) as [ | nm ns defs props | | | | | | | | | ] eqn:Ed; cbn [bearable props_ok] in *; destruct Fp as [Fp Fs]; try exact I;
    try (apply fine_bind; [exact Kf|intros; exact I]).
  - destruct Pr as [-> Ac]. cbv zeta. apply fine_bind; [eapply attrs_fine; [exact Ac|lia]|]. intros t. destruct (l_first (lk c)); [|exact I].
    apply fine_bind; [exact Kf|intros; exact I].
  - match goal with |- context [str_eqb ?w XMLTextNoEnc] => destruct (str_eqb w XMLTextNoEnc) eqn:Q; [|exact I]; apply str_eqb_eq in Q end. apply Fp. exact Q.
  - apply entity_decl_fine; assumption.
  - destruct (no_decls _); [exact I|]. apply fine_bind; [exact Kf|intros; exact I].
  - apply elem_decl_fine; assumption.
  - apply attr_decl_fine; assumption.
Qed.
Lemma lines_fine par : forall k pv n, linkeds h par pv None k -> Forall friendly (flat_map nodes k) -> (2 * List.length (flat_map ptrs k) < n)%nat ->
  fine b (dumpLines h n (hd_error (map root k))).
Proof.
  induction k as [|t r IHr]; intros pv n L F B; cbn [map hd_error]; [destruct n; exact I|].
  cbn [linkeds] in L. destruct L as [L1 L2]. cbn [flat_map] in *. rewrite app_length in B. apply Forall_app in F as [F1 F2].
  destruct n as [|n]; [lia|]. cbn [dumpLines]. apply fine_bind; [eapply tree_fine; [exact L1|exact F1|lia]|]. intros s.
  assert (P : (0 < List.length (ptrs t))%nat) by (destruct t; cbn; lia).
  destruct t as [p a k]. pose proof L1 as L1'. apply linked_eq in L1' as [(c & E & Lc & _) _]. cbn [root]. rewrite E, Lc. cbn [l_next].
  apply fine_bind; [|intros; exact I]. rewrite hdo_none. eapply IHr; [exact L2|exact F2|lia].
Qed.
End Heap.

(* dumpNode and dumpDoc, for every node in the trees of a consistent heap *)
Theorem dump_fine h (b : Prop) p l n : sound h -> live h p -> ~ in_attr h p -> preorder h p l ->
  (forall x d, In x l -> data_of h x = Some d -> bearable d /\ (b -> has_syntax d)) -> (2 * size h <= n)%nat ->
  fine b (dumpNode h n p) /\ fine b (dumpDoc h n p).
Proof.
  intros (F & G & FH) (c & E) NA P Fr B. destruct (node_tree _ _ _ _ _ FH E NA) as (a & k & par & pv & nx & L & Nd & _).
  pose proof (preorder_tree _ (N p a k) _ _ _ _ L P) as ->.
  pose proof (ptrs_small _ _ _ _ _ (f_ok _ _ _ FH) L Nd) as Sm.
  assert (Ff : Forall (friendly h b) (nodes (N p a k))) by (apply Forall_forall; intros x Hx d D; exact (Fr x d Hx D)).
  assert (T : forall n, (2 * List.length (ptrs (N p a k)) <= n)%nat -> fine b (dumpNode h n p)) by (intros m Hm; exact (tree_fine h b (N p a k) _ _ _ m L Ff Hm)).
  split; [apply T; lia|]. unfold dumpDoc. destruct n as [|n]; [unfold size in *; lia|]. apply fine_bind; [apply T; lia|]. intros s. rewrite E.
  apply fine_bind; [|intros; exact I]. apply linked_eq in L as [(c' & E' & Lc & _) K]. rewrite E' in E. injection E as ->. rewrite Lc. cbn [l_first].
  inversion Ff as [|? ? _ F2]; subst. eapply lines_fine; [exact K|exact F2|]. cbn [ptrs List.length] in Sm. rewrite app_length in Sm. lia.
Qed.

(* ---- heaps with nodes out of use ---- *)
Lemma obind_less A B (o : outcome herr A) (f g : A -> outcome herr B) : obind o f <> Pan -> (forall a, o = Ret a -> f a <> Pan -> g a = f a) -> obind o g = obind o f.
Proof. intros NP H. destruct o; cbn in *; auto. Qed.
Lemma dump_less X u h : less X u h -> forall n,
  (forall p, dumpNode u n p <> Pan -> dumpNode h n p = dumpNode u n p) /\ (forall o, dumpNodes u n o <> Pan -> dumpNodes h n o = dumpNodes u n o) /\
  (forall o, dumpAttrs u n o <> Pan -> dumpAttrs h n o = dumpAttrs u n o) /\ (forall o, dumpAttrKids u n o <> Pan -> dumpAttrKids h n o = dumpAttrKids u n o).
Proof.
  intros L. induction n as [|n (I1 & I2 & I3 & I4)]; [repeat split; intros [|]; reflexivity|].
  assert (Two : forall A B (o o' : outcome herr A) (f g : A -> outcome herr B), (o <> Pan -> o' = o) -> (forall a, f a <> Pan -> g a = f a) -> obind o f <> Pan -> obind o' g = obind o f).
  { intros A B o o' f g H1 H2 NP. rewrite (H1 (obind_pan _ _ NP)). apply obind_less; auto. }
  refine (conj _ (conj _ (conj _ _))).
  - intros p. rewrite !dumpNode_eq. destruct (hget u p) as [c|] eqn:E; [|congruence]. destruct (less_get _ _ _ _ _ L E) as [-> _].
    destruct (dat c); try reflexivity; try (apply Two; [apply I2|reflexivity]).
    + cbv zeta. apply Two; [apply I3|]. intros a. destruct (l_first (lk c)); [|reflexivity]. apply Two; [apply I2|reflexivity].
    + destruct (no_decls _); [reflexivity|]. apply Two; [apply I2|reflexivity].
  - intros [p|]; [|reflexivity]. rewrite !dumpNodes_eq. apply Two; [apply I1|]. intros s. destruct (hget u p) as [c|] eqn:E; [|congruence].
    destruct (less_get _ _ _ _ _ L E) as [-> _]. apply Two; [apply I2|reflexivity].
  - intros [p|]; [|reflexivity]. rewrite !dumpAttrs_eq. destruct (hget u p) as [c|] eqn:E; [|congruence]. destruct (less_get _ _ _ _ _ L E) as [-> _].
    destruct (dat c); try congruence. apply Two; [apply I4|]. intros v. apply Two; [apply I3|reflexivity].
  - intros [p|]; [|reflexivity]. rewrite !dumpAttrKids_eq. destruct (hget u p) as [c|] eqn:E; [|congruence]. destruct (less_get _ _ _ _ _ L E) as [-> _].
    apply Two.
    + intros NP. destruct (dat c); try reflexivity; (assert (Q : dumpNode u n p <> Pan) by (intro Y; rewrite Y in NP; congruence); rewrite (I1 _ Q); reflexivity).
    + intros s. apply Two; [apply I4|reflexivity].
Qed.
Lemma lines_less X u h : less X u h -> forall n o, dumpLines u n o <> Pan -> dumpLines h n o = dumpLines u n o.
Proof.
  intros L. induction n as [|n IH]; intros [p|]; try reflexivity. cbn [dumpLines]. intros NP.
  rewrite (proj1 (dump_less X u h L n) p (obind_pan _ _ NP)). apply obind_less; [exact NP|]. intros s _. destruct (hget u p) as [c|] eqn:E; [|congruence].
  destruct (less_get _ _ _ _ _ L E) as [-> _]. intros N2. rewrite (IH _ (obind_pan _ _ N2)). reflexivity.
Qed.
Lemma doc_less X u h n d : less X u h -> dumpDoc u n d <> Pan -> dumpDoc h n d = dumpDoc u n d.
Proof.
  intros L. unfold dumpDoc. destruct n as [|n]; [reflexivity|]. intros NP. rewrite (proj1 (dump_less X u h L n) d (obind_pan _ _ NP)).
  apply obind_less; [exact NP|]. intros s _. destruct (hget u d) as [c|] eqn:E; [|congruence].
  destruct (less_get _ _ _ _ _ L E) as [-> _]. intros N2. rewrite (lines_less X u h L _ _ (obind_pan _ _ N2)). reflexivity.
Qed.

(* ---- trees as values ---- *)
(* elements, texts, comments, references, and instructions without children *)
Definition ordinary (h : heap) (x : ptr) : Prop :=
  exists c, hget h x = Some c /\
    match dat c with
    | DElem _ _ _ _ | DText _ | DComment _ | DRef _ => True
    | DPI _ _ => l_first (lk c) = None
    | _ => False
    end.
(* the value of an attribute is at most one text *)
Definition single_values (h : heap) : Prop :=
  forall k c a ca, hget h k = Some c -> l_par (lk c) = Some a -> hget h a = Some ca -> is_attr (dat ca) = true -> l_next (lk c) = None.

Lemma atts_value h : single_values h -> forall l pv, achain h pv l -> exists atts, attrs_at h (hd_error (map fst l)) atts.
Proof.
  intros Sv. induction l as [|[a ks] r IH]; intros pv V; cbn [map hd_error fst]; [exists []; constructor|].
  cbn [achain] in V. destruct V as [(c & E & Lc & nm & df & D) [Vk V]]. destruct (IH _ V) as (atts & A).
  destruct ks as [|k ks].
  - exists ((nm, []) :: atts). eapply aa_empty; [exact E|exact D|rewrite Lc; reflexivity|rewrite Lc; exact A].
  - cbn [vchain] in Vk. destruct Vk as [(ck & Ek & Lk' & s & Dk) _]. exists ((nm, s) :: atts).
    eapply aa_text; [exact E|exact D|rewrite Lc; reflexivity|exact Ek|exact Dk| |rewrite Lc; exact A].
    apply (Sv k ck a c Ek); [rewrite Lk'; reflexivity|exact E|rewrite D; reflexivity].
Qed.
Lemma kids_value h par : forall k, Forall (fun t => forall par pv nx, linked h par pv nx t -> Forall (ordinary h) (nodes t) -> exists x, node_is h (root t) x) k ->
  forall pv, linkeds h par pv None k -> Forall (ordinary h) (flat_map nodes k) -> exists l, nodes_at h (hd_error (map root k)) l.
Proof.
  induction k as [|t r IHr]; intros IH pv L F; cbn [map hd_error]; [exists []; constructor|].
  inversion IH as [|? ? I1 I2]; subst. cbn [linkeds] in L. destruct L as [L1 L2]. cbn [flat_map] in F. apply Forall_app in F as [F1 F2].
  destruct (I1 _ _ _ L1 F1) as (x & Hx). destruct (IHr I2 _ L2 F2) as (l & Hl). exists (x :: l).
  destruct t as [p a k]. apply linked_eq in L1 as [(c & E & Lc & _) _]. cbn [root] in *. econstructor; [exact E|exact Hx|]. rewrite Lc. cbn [l_next]. rewrite hdo_none. exact Hl.
Qed.
Lemma tree_value h : single_values h -> forall t par pv nx, linked h par pv nx t -> Forall (ordinary h) (nodes t) -> exists x, node_is h (root t) x.
Proof.
  intros Sv. induction t as [p a k IH] using ltree_ind'. intros par pv nx L F. cbn [nodes root] in *. apply linked_eq in L as [(c & E & Lc & Pr) K].
  inversion F as [|? ? (c' & E' & O) F2]; subst. rewrite E in E'. injection E' as <-.
  destruct (dat c) as [ | nm ns defs props | | | | | | | | | ] eqn:Ed; try contradiction; try (eexists; econstructor; eassumption).
  - cbn [props_ok] in Pr. destruct Pr as [-> Ac]. destruct (atts_value _ Sv _ _ Ac) as (atts & A). destruct (kids_value _ _ _ IH _ K F2) as (l & Hl).
    exists (XElem nm ns defs atts l). econstructor; [exact E|exact Ed|exact A|]. rewrite Lc. exact Hl.
Qed.
(* a document all of whose nodes are ordinary is one of Xml.v *)
Theorem document_value h d v e sa i x l : sound h -> single_values h -> data_of h d = Some (DDoc v e sa i x) -> ~ in_attr h d -> preorder h d (d :: l) ->
  Forall (ordinary h) l -> exists k, document_is h d v e sa k.
Proof.
  intros (F & G & FH) Sv D NA P O. apply data_of_some in D as (c & E & Dc). destruct (node_tree _ _ _ _ _ FH E NA) as (a & k & par & pv & nx & L & _).
  pose proof (preorder_tree _ (N d a k) _ _ _ _ L P) as X. cbn [nodes] in X. injection X as ->.
  apply linked_eq in L as [(c' & E' & Lc & _) K]. rewrite E in E'. injection E' as <-.
  destruct (kids_value h (Some d) k) with (pv := @None ptr) as (ks & Hk); [|exact K|exact O|].
  { apply Forall_forall. intros t _ par' pv' nx'. apply tree_value, Sv. }
  exists ks, c, i, x. split; [exact E|]. split; [exact Dc|]. rewrite Lc. exact Hk.
Qed.

(* the values do not depend on nodes out of use *)
Lemma attrs_less X u h o l : less X u h -> attrs_at u o l -> attrs_at h o l.
Proof.
  intros L. induction 1 as [|a c nm df r E D F _ IH|a c nm df t ct v r E D F Et Dt N _ IH]; [constructor| |].
  - eapply aa_empty; [eapply less_get; eassumption|exact D|exact F|exact IH].
  - eapply aa_text; [eapply less_get; eassumption|exact D|exact F|eapply less_get; eassumption|exact Dt|exact N|exact IH].
Qed.
Lemma nodes_less X u h : less X u h -> (forall p x, node_is u p x -> node_is h p x) /\ (forall o l, nodes_at u o l -> nodes_at h o l).
Proof.
  intros L. apply node_nodes.
  - intros p c nm ns defs props atts kids E D A _ IH. econstructor; [eapply less_get; eassumption|exact D|eapply attrs_less; eassumption|exact IH].
  - intros p c s E D. econstructor; [eapply less_get; eassumption|exact D].
  - intros p c s E D. econstructor; [eapply less_get; eassumption|exact D].
  - intros p c t d E D F. econstructor; [eapply less_get; eassumption|exact D|exact F].
  - intros p c nm E D. econstructor; [eapply less_get; eassumption|exact D].
  - constructor.
  - intros p c x r E _ I1 _ I2. econstructor; [eapply less_get; eassumption|exact I1|exact I2].
Qed.
Lemma document_less X u h d v e sa l : less X u h -> document_is u d v e sa l -> document_is h d v e sa l.
Proof. intros L (c & i & x & E & D & K). exists c, i, x. split; [eapply less_get; eassumption|]. split; [exact D|]. apply (nodes_less X u h L), K. Qed.

(* ---- more fuel changes nothing ---- *)
Lemma obind_oof {A B} (o : outcome herr A) (f : A -> outcome herr B) : obind o f <> Oof -> o <> Oof.
Proof. destruct o; cbn; congruence. Qed.
Lemma dump_more h : forall n m, (n <= m)%nat ->
  (forall p, dumpNode h n p <> Oof -> dumpNode h m p = dumpNode h n p) /\ (forall o, dumpNodes h n o <> Oof -> dumpNodes h m o = dumpNodes h n o) /\
  (forall o, dumpAttrs h n o <> Oof -> dumpAttrs h m o = dumpAttrs h n o) /\ (forall o, dumpAttrKids h n o <> Oof -> dumpAttrKids h m o = dumpAttrKids h n o).
Proof.
  induction n as [|n IH]; intros m Hm.
  { assert (Q : forall A (F : nat -> option ptr -> outcome herr A), (forall k p, F k None = F p None) -> (forall p, F 0%nat (Some p) = Oof) -> forall o, F 0%nat o <> Oof -> F m o = F 0%nat o).
    { intros A F N S [p|] X; [exfalso; apply X, S|apply N]. }
    split; [intros p X; exfalso; apply X; reflexivity|].
    split; [apply (Q _ (dumpNodes h)); [intros [|] [|]; reflexivity|reflexivity]|]. split; [apply (Q _ (dumpAttrs h)); [intros [|] [|]; reflexivity|reflexivity]|].
    apply (Q _ (dumpAttrKids h)); [intros [|] [|]; reflexivity|reflexivity]. }
  destruct m as [|m]; [lia|]. destruct (IH m ltac:(lia)) as (I1 & I2 & I3 & I4).
  assert (Two : forall A B (o o' : outcome herr A) (f g : A -> outcome herr B), (o <> Oof -> o' = o) -> (forall a, f a <> Oof -> g a = f a) -> obind o f <> Oof -> obind o' g = obind o f).
  { intros A B o o' f g H1 H2 NP. rewrite (H1 (obind_oof _ _ NP)). destruct o; cbn in *; auto. }
  refine (conj _ (conj _ (conj _ _))).
  - intros p. rewrite !dumpNode_eq. destruct (hget h p) as [c|]; [|reflexivity].
    destruct (dat c); try reflexivity; try (apply Two; [apply I2|reflexivity]).
    + cbv zeta. apply Two; [apply I3|]. intros a. destruct (l_first (lk c)); [|reflexivity]. apply Two; [apply I2|reflexivity].
    + destruct (no_decls _); [reflexivity|]. apply Two; [apply I2|reflexivity].
  - intros [p|]; [|reflexivity]. rewrite !dumpNodes_eq. apply Two; [apply I1|]. intros s. destruct (hget h p) as [c|]; [|reflexivity]. apply Two; [apply I2|reflexivity].
  - intros [p|]; [|reflexivity]. rewrite !dumpAttrs_eq. destruct (hget h p) as [c|]; [|reflexivity].
    destruct (dat c); try reflexivity. apply Two; [apply I4|]. intros v. apply Two; [apply I3|reflexivity].
  - intros [p|]; [|reflexivity]. rewrite !dumpAttrKids_eq. destruct (hget h p) as [c|]; [|reflexivity]. apply Two.
    + intros NP. destruct (dat c); try reflexivity; (assert (Q : dumpNode h n p <> Oof) by (intro Y; rewrite Y in NP; congruence); rewrite (I1 _ Q); reflexivity).
    + intros s. apply Two; [apply I4|reflexivity].
Qed.
Lemma lines_more h : forall n m o, (n <= m)%nat -> dumpLines h n o <> Oof -> dumpLines h m o = dumpLines h n o.
Proof.
  induction n as [|n IH]; intros m [p|] Hm NP; try (destruct m; reflexivity); [exfalso; apply NP; reflexivity|].
  destruct m as [|m]; [lia|]. cbn [dumpLines] in *. rewrite (proj1 (dump_more h n m ltac:(lia)) p (obind_oof _ _ NP)).
  destruct (dumpNode h n p); cbn [obind] in *; try reflexivity. destruct (hget h p) as [c|]; [|reflexivity]. rewrite (IH m _ ltac:(lia) (obind_oof _ _ NP)). reflexivity.
Qed.
Lemma doc_more h n m d : (n <= m)%nat -> dumpDoc h n d <> Oof -> dumpDoc h m d = dumpDoc h n d.
Proof.
  intros Hm NP. unfold dumpDoc in *. destruct n as [|n]; [congruence|]. destruct m as [|m]; [lia|].
  rewrite (proj1 (dump_more h n m ltac:(lia)) d (obind_oof _ _ NP)). destruct (dumpNode h n d); cbn [obind] in *; try reflexivity.
  destruct (hget h d) as [c|]; [|reflexivity]. rewrite (lines_more h n m _ ltac:(lia) (obind_oof _ _ NP)). reflexivity.
Qed.

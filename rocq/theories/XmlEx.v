(* Concrete trees for the statements about reading and writing documents, and
   a reader of heaps that shows what tree one holds.  Nothing here models code
   of /repo. *)
From Coq Require Import FMapPositive.
From Verif Require Import Base Utf8 Utf8Proofs XmlSpec Scan Parser Grammar DocComplete Sample ParserEx Heap Dump TreeBuilder Xml Mirror Tidy Nested.

Fixpoint read_attrs (n : nat) (h : heap) (o : option ptr) : option (list (str * str)) :=
  match o with
  | None => Some []
  | Some a =>
      match n with
      | O => None
      | S n' =>
          match hget h a with
          | Some c =>
              match dat c, read_attrs n' h (l_next (lk c)) with
              | DAttr nm _, Some r =>
                  match l_first (lk c) with
                  | None => Some ((nm, []) :: r)
                  | Some t => match hget h t with
                              | Some ct => match dat ct, l_next (lk ct) with DText v, None => Some ((nm, v) :: r) | _, _ => None end
                              | None => None
                              end
                  end
              | _, _ => None
              end
          | None => None
          end
      end
  end.
Lemma read_attrs_ok h : forall n o l, read_attrs n h o = Some l -> attrs_at h o l.
Proof.
  induction n as [|n IH]; intros [a|] l H; cbn [read_attrs] in H; try discriminate; try (injection H as <-; constructor).
  destruct (hget h a) as [c|] eqn:E; [|discriminate]. destruct (dat c) eqn:D; try discriminate.
  destruct (read_attrs n h (l_next (lk c))) as [r|] eqn:R; [|discriminate]. apply IH in R.
  destruct (l_first (lk c)) as [t|] eqn:F.
  - destruct (hget h t) as [ct|] eqn:T; [|discriminate]. destruct (dat ct) eqn:Dt; try discriminate.
    destruct (l_next (lk ct)) eqn:N; [discriminate|]. injection H as <-. eapply aa_text; eassumption.
  - injection H as <-. eapply aa_empty; eassumption.
Qed.
Fixpoint read_nodes (n : nat) (h : heap) (o : option ptr) : option (list xnode) :=
  match o with
  | None => Some []
  | Some p =>
      match n with
      | O => None
      | S n' =>
          match hget h p with
          | Some c =>
              match (match dat c with
                     | DElem nm ns defs props =>
                         match read_attrs n h props, read_nodes n' h (l_first (lk c)) with
                         | Some a, Some k => Some (XElem nm ns defs a k)
                         | _, _ => None
                         end
                     | DText s => Some (XText s)
                     | DComment s => Some (XComment s)
                     | DPI t d => match l_first (lk c) with None => Some (XPI t d) | Some _ => None end
                     | DRef nm => Some (XRef nm)
                     | _ => None
                     end), read_nodes n' h (l_next (lk c)) with
              | Some x, Some r => Some (x :: r)
              | _, _ => None
              end
          | None => None
          end
      end
  end.
Lemma read_nodes_ok h : forall n o l, read_nodes n h o = Some l -> nodes_at h o l.
Proof.
  induction n as [|n IH]; intros [p|] l H; cbn [read_nodes] in H; try discriminate; try (injection H as <-; constructor).
  destruct (hget h p) as [c|] eqn:E; [|discriminate].
  match type of H with match ?m with _ => _ end = _ => destruct m as [x|] eqn:X; [|discriminate] end.
  destruct (read_nodes n h (l_next (lk c))) as [r|] eqn:R; [|discriminate]. injection H as <-. apply IH in R.
  eapply na_cons; [exact E| |exact R]. destruct (dat c) eqn:D; try discriminate; try (injection X as <-; econstructor; eassumption).
  - destruct (read_attrs (S n) h props) as [a|] eqn:A; [|discriminate]. destruct (read_nodes n h (l_first (lk c))) as [k|] eqn:K; [|discriminate].
    injection X as <-. eapply ni_elem; [exact E|exact D|eapply read_attrs_ok, A|apply IH, K].
  - destruct (l_first (lk c)) eqn:F; [discriminate|]. injection X as <-. eapply ni_pi; eassumption.
Qed.
Definition read_doc (n : nat) (h : heap) (d : ptr) : option (str * str * Z * list xnode) :=
  match hget h d with
  | Some c => match dat c with
              | DDoc v e s _ _ => match read_nodes n h (l_first (lk c)) with Some l => Some (v, e, s, l) | None => None end
              | _ => None
              end
  | None => None
  end.
Lemma read_doc_ok h n d v e s l : read_doc n h d = Some (v, e, s, l) -> document_is h d v e s l.
Proof.
  unfold read_doc, document_is. destruct (hget h d) as [c|] eqn:E; [|discriminate]. destruct (dat c) eqn:D; try discriminate.
  destruct (read_nodes n h (l_first (lk c))) as [k|] eqn:K; [|discriminate]. intros [= <- <- <- <-].
  exists c. do 2 eexists. split; [reflexivity|]. split; [exact D|]. eapply read_nodes_ok, K.
Qed.

(* parsing into a tree *)
Definition parsed (x : str) : outcome gerr unit * tb := let '(o, s) := Parse (env0 0 false) tb (treeH 60) 400 tb_init x in (o, hs s).
Definition heap_of (x : str) : heap := tb_heap (snd (parsed x)).
Definition tree_of (x : str) : option (str * str * Z * list xnode) :=
  match tb_doc (snd (parsed x)) with Some d => read_doc 60 (heap_of x) d | None => None end.

(* a document with all that is modelled: a declaration, comments, attributes,
   namespaces, markup characters in text and attributes *)
Definition doc_text : str :=
  s_ "<?xml version='1.0' encoding='utf-8' standalone='yes'?><!--c--><a x='1 &lt; &amp;' p:y='&quot;'>hi &amp; <p:b xmlns:p='u'>&gt;</p:b>bye<e/></a><!--d-->".
Definition doc_tree : list xnode :=
  [XComment (s_ "c");
   XElem (s_ "a") None [] [(s_ "x", s_ "1 < &"); (s_ "p:y", s_ """")]
     [XText (s_ "hi & ");
      XElem (s_ "b") (Some (s_ "p", s_ "u")) [(s_ "p", s_ "u")] [] [XText (s_ ">")];
      XText (s_ "bye"); XElem (s_ "e") None [] [] []];
   XComment (s_ "d")].
Lemma doc_is : document_is (heap_of doc_text) 1%positive (s_ "1.0") (s_ "utf-8") 1 doc_tree.
Proof. apply (read_doc_ok _ 60). vm_compute. reflexivity. Qed.

Lemma resolves_none ns : bound ns [] = None -> resolves ns (utf8 []) [].
Proof. unfold resolves. cbn. intros ->. auto. Qed.
Lemma one_tidy E p l rs : qnamed E p l -> (p = [] -> l <> s_ "xmlns") -> p <> s_ "xmlns" -> legals rs -> tidy_att E (utf8 (qname p l), utf8 rs).
Proof. intros A B C D. exists p, l, rs. auto. Qed.
Lemma doc_tidy eof pct : tidy_document (env0 eof pct) doc_tree.
Proof.
  set (E := env0 eof pct). split.
  - assert (Cm : forall c, (c = 99 \/ c = 100) -> comment_text [c] /\ eol [c] [c]).
    { intros c Hc. split.
      - split; [constructor; [destruct Hc as [->| ->]; reflexivity|constructor]|]. split.
        + intros (a & b & X). apply (f_equal (@List.length Z)) in X. rewrite !app_length in X. cbn in X. lia.
        + right. cbn. lia.
      - apply eol_char; [intros ->; lia|constructor]. }
    apply tds_node; [apply (td_comment E [] [99]); apply Cm; auto|]. apply tds_node; [|apply tds_node; [apply (td_comment E [] [100]); apply Cm; auto|constructor]].
    apply (td_elem E [] [] (s_ "a") [] []).
    + split; [left; reflexivity|nc].
    + constructor.
    + constructor; [apply (one_tidy E [] (s_ "x") (s_ "1 < &"))|constructor; [apply (one_tidy E (s_ "p") (s_ "y") (s_ """"))|constructor]];
        try discriminate; try (split; [left; reflexivity|nc]); try (split; [right; nc|nc]); try lit.
    + repeat constructor; cbn; intuition discriminate.
    + apply resolves_none. reflexivity.
    + apply tds_node; [apply (td_text E _ (s_ "hi & ")); lit|]. apply tds_node.
      * apply (td_elem E _ (s_ "p") (s_ "b") (s_ "u") [(s_ "p", s_ "u")] []).
        -- split; [right; nc|nc].
        -- constructor; [|constructor]. exists (s_ "p"), (s_ "u"). split; [nc|]. split; [discriminate|]. split; [discriminate|]. split.
           ++ split; [discriminate|]. split; [lit|]. repeat split; notin.
           ++ split; [discriminate|]. split; reflexivity.
        -- constructor.
        -- constructor.
        -- reflexivity.
        -- apply tds_node; [apply (td_text E _ (s_ ">")); lit|constructor].
      * apply tds_node; [apply (td_text E _ (s_ "bye")); lit|]. apply tds_node; [|constructor].
        apply (td_elem E _ [] (s_ "e") [] []); [split; [left; reflexivity|nc]|constructor|constructor|constructor|apply resolves_none; reflexivity|constructor].
  - exists [XComment (s_ "c")], (s_ "a"), None, [], [(s_ "x", s_ "1 < &"); (s_ "p:y", s_ """")],
      [XText (s_ "hi & "); XElem (s_ "b") (Some (s_ "p", s_ "u")) [(s_ "p", s_ "u")] [] [XText (s_ ">")]; XText (s_ "bye"); XElem (s_ "e") None [] [] []],
      [XComment (s_ "d")].
    split; [reflexivity|]. split; [constructor; [eexists; reflexivity|constructor]|]. split; [constructor; [eexists; reflexivity|constructor]|].
    split; [repeat constructor; intros []|]. intros [X|[]]. discriminate.
Qed.

(* writing what was parsed *)
Definition written (x : str) : outcome herr str :=
  match tb_doc (snd (parsed x)) with Some d => dumpDoc (heap_of x) 60 d | None => Oof end.

(* a document that repeats an attribute *)
Definition twice : str := s_ "<r a='1' b='' a='2'/>".
Definition twice_events : list event :=
  [EStartElement (s_ "r") [] [] [] [AAttr (s_ "a") [] (s_ "1"); AAttr (s_ "b") [] []; AAttr (s_ "a") [] (s_ "2")]; EEndElement (s_ "r") [] []].
Lemma att1 E n c t a d : ncname E [n] -> [n] <> s_ "xmlns" -> legal c = true -> blank c = false -> c <> 39 -> c <> 60 -> c <> 38 -> atts E t a d ->
  atts E (s_ " " ++ [n] ++ s_ "='" ++ [c] ++ s_ "'" ++ t) (AAttr (utf8 [n]) [] (utf8 [c] ++ []) :: a) d.
Proof.
  intros N X L B Q1 Q2 Q3 A. refine (at_attr E (s_ " ") [] [n] [] [] 39 [c] (utf8 [c] ++ []) t a d _ _ _ _ _ _ _ _ _ A).
  - discriminate.
  - lit.
  - split; [left; reflexivity|exact N].
  - intros _. exact X.
  - discriminate.
  - constructor.
  - constructor.
  - right; reflexivity.
  - apply al_char; try assumption. constructor.
Qed.
Lemma att0 E n t a d : ncname E [n] -> [n] <> s_ "xmlns" -> atts E t a d ->
  atts E (s_ " " ++ [n] ++ s_ "=''" ++ t) (AAttr (utf8 [n]) [] [] :: a) d.
Proof.
  intros N X A. refine (at_attr E (s_ " ") [] [n] [] [] 39 [] [] t a d _ _ _ _ _ _ _ _ _ A).
  - discriminate.
  - lit.
  - split; [left; reflexivity|exact N].
  - intros _. exact X.
  - discriminate.
  - constructor.
  - constructor.
  - right; reflexivity.
  - constructor.
Qed.
Lemma twice_document eof pct : document (env0 eof pct) twice {| di_version := []; di_encoding := None; di_standalone := None |} twice_events [].
Proof.
  set (E := env0 eof pct).
  refine (d_plain E [] twice [] [] twice_events [] [] _ _ _ _); [constructor| |constructor|discriminate].
  refine (e_empty E [] [] (s_ "r") (s_ " a='1' b='' a='2'") _ [] [] _ _ _).
  - split; [left; reflexivity|nc].
  - apply (att1 E 97 49 (s_ " b='' a='2'")); try reflexivity; try discriminate; [nc|].
    apply (att0 E 98 (s_ " a='2'")); [nc|discriminate|].
    apply (att1 E 97 50 []); try reflexivity; try discriminate; [nc|]. constructor. constructor.
  - apply resolves_none. reflexivity.
Qed.

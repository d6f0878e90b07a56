(* A document is parsed and edited; what is written is read back. *)
From Verif Require Import Base Utf8 Utf8Proofs XmlSpec Escape Scan ScanProofs Parser LexProofs Grammar Sample ParserEx NoPanic Heap Dump TreeBuilder TreeShape TreeOps Forest
  ForestOps History TreeCalls TreeRead TreeEx Retire RetireEx Xml XmlGrammar DocComplete Tidy XmlFinal XmlEx LooseEx TreeSafeEx TreeSafeDoctype TreeSafeDoctypeEx Edit EditEx DumpTotal DumpEdit DumpDecl.
Local Open Scope positive_scope.

Definition short_src : str := s_ "<?xml version='1.0'?><!--c--><r x='1'>a<b/>d</r>".
Lemma short_ascii : forall l', suffix l' short_src -> runes_of l' = l'.
Proof. intros l' Hs. eapply ascii_suffix; [|exact Hs]. apply Forall_forall. assert (X : forallb (fun c => ((0 <=? c) && (c <? 128))%Z) short_src = true) by reflexivity. rewrite forallb_forall in X. intros x Hx. specialize (X x Hx). apply andb_true_iff in X as [X1 X2]. split; [apply Z.leb_le, X1|apply Z.ltb_lt, X2]. Qed.
Lemma short_fits : forall c rest, suffix rest short_src -> fitting E1 700 (decode E1 c rest).
Proof.
  intros c rest Hs. unfold E1. cbn [decode env0]. rewrite (short_ascii _ Hs). eapply fitting_suffix; [|exact Hs].
  refine (conj _ (conj (or_introl _) _)); [apply ampb_ok; reflexivity| |vm_compute; lia].
  intros pre r He.
  assert (X : existsb (fun k => has_prefix (s_ "<!DOCTYPE") (skipn k short_src)) (seq 0 (List.length short_src + 1)) = false) by (vm_compute; reflexivity).
  apply no_infix in X. apply X. exists pre, r. exact He.
Qed.
Lemma short_percent : late_percent short_src.
Proof.
  intros pre b r He Hb. exfalso. assert (X : In 37%Z short_src) by (rewrite He; apply in_or_app; right; right; left; reflexivity).
  revert X. notin.
Qed.
Definition short_heap : heap := Eval vm_compute in tb_heap (hs (snd (Parse E1 tb (treeH 700) 700 tb_init short_src))).
Lemma short_parsed : parsed_heap E1 700 short_heap.
Proof.
  exists short_src, 700%nat, (snd (Parse E1 tb (treeH 700) 700 tb_init short_src)).
  split; [exact short_fits|]. split; [intros; apply short_percent|]. split; vm_compute; reflexivity.
Qed.
Definition short_edits : list tcall := [TOp (ONew (Some 1) (el (s_ "n"))); TOp (OContent 9 (s_ "z<")); TReplace 7 9; TOp (OSet 3 (s_ "k") (s_ "w"))].
Definition short_after : list ptr * heap := Eval vm_compute in match runs short_edits [] short_heap with Some r => r | None => ([], empty_heap) end.
Lemma short_edited : edited E1 700 (fst short_after) (snd short_after).
Proof.
  eapply (runs_since _ (edited_start E1 700 E1_usual) short_edits [] short_heap); [vm_compute; reflexivity|].
  constructor. right. exact short_parsed.
Qed.
Definition short_now : heap := drop (fst short_after) (snd short_after).
Definition singleb (h : heap) : bool :=
  forallb (fun x => match l_par (lk (snd x)) with
                    | Some a => match hget h a with
                                | Some ca => negb (is_attr (dat ca)) || match l_next (lk (snd x)) with None => true | _ => false end
                                | None => true
                                end
                    | None => true
                    end) (FMapPositive.PositiveMap.elements (cells h)).
Lemma singleb_ok h : singleb h = true -> single_values h.
Proof.
  intros B k c a ca Ek P Ea A. unfold singleb in B. rewrite forallb_forall in B.
  specialize (B (k, c) (FMapPositive.PositiveMap.elements_correct _ _ Ek)). cbn [snd] in B. rewrite P, Ea, A in B. cbn [negb orb] in B.
  destruct (l_next (lk c)); [discriminate|reflexivity].
Qed.
Lemma short_single : single_values short_now. Proof. apply singleb_ok. vm_compute. reflexivity. Qed.
Lemma short_kids p cs : match hget short_now p with Some c => negb (is_attr (dat c)) | None => false end = true ->
  pathb short_now (first_of short_now p) cs = true -> children short_now p cs.
Proof.
  intros A C. destruct (hget short_now p) as [c|] eqn:E; [|discriminate]. apply negb_true_iff in A.
  unfold first_of in C. rewrite E in C. destruct (edit_sound _ (edited_start E1 700 E1_usual) _ _ short_edited : sound short_now) as (F & G & FH).
  eapply children_by_path; [exact (forest_consistent _ _ _ FH)|exact E|exact A|apply pathb_ok, C].
Qed.
Lemma short_order : preorder short_now 1 [1; 2; 3; 6; 9; 10; 8].
Proof.
  assert (Leaf : forall p, match hget short_now p with Some c => negb (is_attr (dat c)) | None => false end = true -> pathb short_now (first_of short_now p) [] = true -> preorder short_now p [p]).
  { intros p A B. change [p] with (p :: concat []). apply (pre_node short_now p []); [apply short_kids; assumption|constructor]. }
  change [1; 2; 3; 6; 9; 10; 8] with (1 :: concat [[2]; 3 :: concat [[6]; 9 :: concat [[10]]; [8]]]).
  apply (pre_node short_now 1 [2; 3]); [apply short_kids; vm_compute; reflexivity|]. constructor; [apply Leaf; vm_compute; reflexivity|constructor; [|constructor]].
  apply (pre_node short_now 3 [6; 9; 8]); [apply short_kids; vm_compute; reflexivity|].
  constructor; [apply Leaf; vm_compute; reflexivity|constructor; [|constructor; [apply Leaf; vm_compute; reflexivity|constructor]]].
  apply (pre_node short_now 9 [10]); [apply short_kids; vm_compute; reflexivity|]. constructor; [apply Leaf; vm_compute; reflexivity|constructor].
Qed.
Lemma short_ordinary : Forall (ordinary short_now) [2; 3; 6; 9; 10; 8].
Proof. repeat constructor; eexists; (split; [vm_compute; reflexivity|exact I]). Qed.
Definition short_tree : list xnode :=
  [XComment (s_ "c"); XElem (s_ "r") None [] [(s_ "x", s_ "1"); (s_ "k", s_ "w")] [XText (s_ "a"); XElem (s_ "n") None [] [] [XText (s_ "z<")]; XText (s_ "d")]].
Lemma short_is : document_is short_now 1 (s_ "1.0") [] (sa_code None) short_tree.
Proof. apply (read_doc_ok _ 60). vm_compute. reflexivity. Qed.
Lemma short_tidy : tidy_document E1 short_tree.
Proof.
  split.
  - apply tds_node; [apply (td_comment E1 [] [99%Z])|].
    { split; [constructor; [reflexivity|constructor]|]. split; [|right; cbn; lia].
      intros (a & b & X). apply (f_equal (@List.length Z)) in X. rewrite !app_length in X. cbn in X. lia. }
    { apply eol_char; [discriminate|constructor]. }
    apply tds_node; [|constructor]. apply (td_elem E1 [] [] (s_ "r") [] []).
    + split; [left; reflexivity|nc].
    + constructor.
    + constructor; [apply (one_tidy E1 [] (s_ "x") (s_ "1"))|constructor; [apply (one_tidy E1 [] (s_ "k") (s_ "w"))|constructor]];
        try discriminate; try (split; [left; reflexivity|nc]); try lit.
    + repeat constructor; cbn; intuition discriminate.
    + apply resolves_none. reflexivity.
    + apply tds_node; [apply (td_text E1 _ (s_ "a")); lit|]. apply tds_node; [|apply tds_node; [apply (td_text E1 _ (s_ "d")); lit|constructor]].
      apply (td_elem E1 _ [] (s_ "n") [] []); [split; [left; reflexivity|nc]|constructor|constructor|constructor|apply resolves_none; reflexivity|].
      apply tds_node; [apply (td_text E1 _ (s_ "z<")); lit|constructor].
  - eexists [XComment (s_ "c")], _, _, _, _, _, []. split; [reflexivity|]. split; [constructor; [eexists; reflexivity|constructor]|]. split; [constructor|].
    split; [constructor|intros []].
Qed.

(* the edits of the document with declarations create none *)
Definition newb (c : tcall) : bool :=
  match c with TOp (ONew _ (DElemDecl _ _ _ _)) | TOp (ONew _ (DAttrDecl _ _ _ _ _ _ _)) | TOp (ONew _ (DEntity _ _ _ _ _ _)) => false | _ => true end.
Lemma runs_tended (start : heap -> Prop) (Sound : forall h, start h -> sound h) l : forallb newb l = true ->
  forall X h X' h', runs l X h = Some (X', h') -> tended start X h -> tended start X' h'.
Proof.
  induction l as [|c r IH]; intros B X h X' h' E L; cbn [runs forallb] in *; [injection E as <- <-; exact L|]. apply andb_prop in B as [B1 B2].
  destruct (fitb (drop X h) c) eqn:Fb; [|discriminate]. destruct (since_forest _ Sound _ _ (tended_since _ _ _ L)) as (_ & F & G & FH).
  eapply (IH B2); [exact E|]. destruct (run c h) as [y h2] eqn:Rn.
  eapply tendedS; [exact L| |eapply fitb_ok; eassumption|exact Rn|intro x; rewrite in_app_iff, (goneb_ok _ _ _ _ FH Fb); tauto].
  intros o d -> D. destruct d; try exact D; discriminate.
Qed.
Lemma retyped_tended : tended (fun h => h = empty_heap \/ parsed_heap E1 1500 h) (fst retyped) (snd retyped).
Proof.
  eapply (runs_tended _ (edited_start E1 1500 E1_usual) typed_edits eq_refl [] typed_heap); [vm_compute; reflexivity|].
  constructor. right. exact typed_parsed.
Qed.

(* Concrete heaps for the statements about the tree, and checkers that show
   them to be reachable.  Nothing here models code of /repo. *)
From Coq Require Import FMapPositive.
From Verif Require Import Base Utf8 Utf8Proofs XmlSpec Escape Scan Heap TreeShape TreeOps Forest ForestOps ForestAdd ForestAttr History TreeCalls TreeRead.

Definition in_attrb (h : heap) (p : ptr) : bool :=
  match hget h p with
  | None => false
  | Some c => is_attr (dat c) ||
              match l_par (lk c) with
              | Some q => match hget h q with Some d => is_attr (dat d) | None => false end
              | None => false
              end
  end.
Definition liveb (h : heap) (p : ptr) : bool := match hget h p with Some _ => true | None => false end.
Definition looseb (h : heap) (q : ptr) : bool :=
  match hget h q with
  | None => false
  | Some c => negb (is_attr (dat c)) && optr_eqb (l_par (lk c)) None && optr_eqb (l_prev (lk c)) None && optr_eqb (l_next (lk c)) None
  end.
(* following Parent from p ends without meeting q *)
Fixpoint aboveb (n : nat) (h : heap) (q p : ptr) : bool :=
  match n with
  | O => false
  | S n' => negb (Pos.eqb p q) &&
            match hget h p with
            | None => true
            | Some c => match l_par (lk c) with None => true | Some r => aboveb n' h q r end
            end
  end.
Definition attachableb (h : heap) (p q : ptr) : bool := liveb h p && negb (in_attrb h p) && looseb h q && aboveb 20 h q p.
Definition allowedb (h : heap) (o : op) : bool :=
  match o with
  | ONew _ d => match d with DAttr _ _ => false | DElem _ _ _ props => optr_eqb props None | _ => true end
  | OChild p q | OSibling p q => attachableb h p q
  | OContent p _ => liveb h p && negb (in_attrb h p)
  | OSet e _ v => match hget h e with Some c => typeOf (dat c) =? ElementNode | None => false end &&
                  forallb valid_rune v && negb (existsb (fun r => r =? 38) v)
  end.
Lemma in_attrb_ok h p : in_attrb h p = false -> ~ in_attr h p.
Proof.
  unfold in_attrb. intros E (c & E1 & H). rewrite E1 in E. apply orb_false_elim in E as [A B].
  destruct H as [H|(q & d & P & Eq & D)]; [congruence|]. rewrite P, Eq in B. congruence.
Qed.
Lemma liveb_ok h p : liveb h p = true -> live h p.
Proof. unfold liveb, live. destruct (hget h p); [eauto|discriminate]. Qed.
Lemma looseb_ok h p : looseb h p = true -> loose h p.
Proof.
  unfold looseb, loose. destruct (hget h p) as [c|]; [|discriminate]. intro E. apply andb_prop in E as [E D]. apply andb_prop in E as [E C].
  apply andb_prop in E as [A B]. apply negb_true_iff in A. exists c. repeat (split; [first [reflexivity|assumption|now apply optr_eqb_eq]|]).
  now apply optr_eqb_eq.
Qed.
Lemma aboveb_ok h q : forall n p, aboveb n h q p = true -> ~ ancestor h q p.
Proof.
  induction n as [|n IH]; intros p E; [discriminate|]. cbn [aboveb] in E. apply andb_prop in E as [A B].
  apply negb_true_iff, Pos.eqb_neq in A. intro X. inversion X as [Y|p' c r E1 P1 X1]; subst; [congruence|].
  rewrite E1, P1 in B. exact (IH _ B X1).
Qed.
Lemma attachableb_ok h p q : attachableb h p q = true -> attachable h p q.
Proof.
  unfold attachableb. intro E. apply andb_prop in E as [E D]. apply andb_prop in E as [E C]. apply andb_prop in E as [A B].
  apply negb_true_iff in B. refine (conj (liveb_ok _ _ A) (conj (in_attrb_ok _ _ B) (conj (looseb_ok _ _ C) (aboveb_ok _ _ _ _ D)))).
Qed.
Lemma allowedb_ok h o : allowedb h o = true -> allowed h o.
Proof.
  destruct o as [w d|p q|p q|p b|e nm v]; cbn [allowedb allowed].
  - destruct d; cbn; try discriminate; try exact (fun _ => I). intro E. now apply optr_eqb_eq.
  - apply attachableb_ok.
  - apply attachableb_ok.
  - intro E. apply andb_prop in E as [A B]. apply negb_true_iff in B. split; [apply liveb_ok, A|apply in_attrb_ok, B].
  - intro E. apply andb_prop in E as [E C]. apply andb_prop in E as [A B]. refine (conj _ (conj _ _)).
    + destruct (hget h e) as [c|]; [|discriminate]. exists c. split; [reflexivity|]. now apply Z.eqb_eq.
    + now apply Forall_forall, forallb_forall.
    + exists v. apply decodes_plain. apply negb_true_iff in C. intro X.
      assert (Y : existsb (fun r => r =? 38) v = true); [|congruence]. apply existsb_exists. exists 38. auto.
Qed.
(* running a list of calls, checking each *)
Fixpoint runs_ops (l : list op) (h : heap) : option heap :=
  match l with
  | [] => Some h
  | o :: r => if allowedb h o then runs_ops r (snd (call o h)) else None
  end.
Lemma runs_ops_reach l : forall h h', runs_ops l h = Some h' -> reach h -> reach h'.
Proof.
  induction l as [|o r IH]; intros h h' E R; cbn [runs_ops] in E; [injection E as <-; exact R|].
  destruct (allowedb h o) eqn:A; [|discriminate]. eapply IH; [exact E|].
  destruct (call o h) as [x h2] eqn:C. eapply reachS; [exact R|apply allowedb_ok, A|]. exact C.
Qed.
Definition heap_of (l : list op) : heap := match runs_ops l empty_heap with Some h => h | None => empty_heap end.
Lemma heap_of_reach l : reach (heap_of l).
Proof.
  unfold heap_of. destruct (runs_ops l empty_heap) eqn:E; [|constructor]. eapply runs_ops_reach; [exact E|constructor].
Qed.

Fixpoint pathb (h : heap) (o : option ptr) (l : list ptr) : bool :=
  match o, l with
  | None, [] => true
  | Some p, q :: r => Pos.eqb p q && match hget h p with Some c => pathb h (l_next (lk c)) r | None => false end
  | _, _ => false
  end.
Lemma pathb_ok h l : forall o, pathb h o l = true -> path h o l.
Proof.
  induction l as [|q r IH]; intros o E; destruct o as [p|]; try discriminate; [constructor|].
  cbn [pathb] in E. apply andb_prop in E as [A B]. apply Pos.eqb_eq in A. subst q. destruct (hget h p) as [c|] eqn:Ec; [|discriminate].
  econstructor; [exact Ec|]. apply IH, B.
Qed.
Lemma children_ok h p cs : reach h ->
  match hget h p with Some c => negb (is_attr (dat c)) && pathb h (l_first (lk c)) cs | None => false end = true -> children h p cs.
Proof.
  intros R E. destruct (hget h p) as [c|] eqn:Ec; [|discriminate]. apply andb_prop in E as [A B]. apply negb_true_iff in A.
  eapply children_by_path; [apply reach_consistent, R|exact Ec|exact A|apply pathb_ok, B].
Qed.

(* A document 1 with <r>a<b id='v' k='w'>xy</b><!--c--></r> (r is 2, its children
   3, 4 and 6, the text xy 5, the attributes 7 and 9), a loose element 11 with a
   text child 13, a loose text 12 and a loose comment 14 *)
Definition doc0 : data := DDoc (s_ "1.0") [] (-1) None None.
Definition el (nm : str) : data := DElem nm None [] None.
Definition ops1 : list op :=
  [ONew None doc0; ONew (Some 1%positive) (el (s_ "r")); OChild 1 2;
   ONew (Some 1%positive) (DText (s_ "a")); OChild 2 3;
   ONew (Some 1%positive) (el (s_ "b")); OChild 2 4; OContent 4 (s_ "xy");
   ONew (Some 1%positive) (DComment (s_ "c")); OChild 2 6;
   OSet 4 (s_ "id") (s_ "v"); OSet 4 (s_ "k") (s_ "w");
   ONew None (el (s_ "n")); ONew None (DText (s_ "t")); OContent 11 (s_ "new");
   ONew None (DComment (s_ "d"))]%positive.
Definition hx : heap := heap_of ops1.
Lemma hx_reach : reach hx.
Proof. apply heap_of_reach. Qed.
Lemma hx_all : runs_ops ops1 empty_heap <> None.
Proof. vm_compute. discriminate. Qed.
Ltac kids := apply children_ok; [apply heap_of_reach|vm_compute; reflexivity].
Fixpoint chain (n : nat) (h : heap) (o : option ptr) : list ptr :=
  match n, o with
  | S n', Some p => p :: match hget h p with Some c => chain n' h (l_next (lk c)) | None => [] end
  | _, _ => []
  end.
Definition kids_of_node (h : heap) (p : ptr) : list ptr := match hget h p with Some c => chain 50 h (l_first (lk c)) | None => [] end.
Ltac pre :=
  repeat first
    [ apply Forall2_cons | apply Forall2_nil
    | match goal with |- preorder ?h ?p _ => let cs := eval vm_compute in (kids_of_node h p) in apply (pre_node h p cs); [kids|] end ].

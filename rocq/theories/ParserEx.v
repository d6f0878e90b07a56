(* Concrete documents, places and handlers that meet the hypotheses of the
   theorems about the parser; used by the examples of PropertiesParser.v. *)
From Verif Require Import Base Utf8 Utf8Proofs XmlSpec Encoding Scan ScanProofs Parser Effects LexProofs Grammar TextProofs
  DocComplete Term NoPanic Legal Sample Reject.
Local Open Scope Z_scope.

Lemma by_forallb : forall (f : Z -> bool) l, forallb f l = true -> Forall (fun c => f c = true) l.
Proof. intros f l Hf. apply Forall_forall. rewrite forallb_forall in Hf. exact Hf. Qed.
Ltac lit := unfold blanks, legals; apply by_forallb; reflexivity.
Ltac nc := refine (conj (conj _ _) (conj _ _)); [reflexivity|lit|lit|discriminate].

Lemma no_infix : forall p s, existsb (fun k => has_prefix p (skipn k s)) (seq 0 (List.length s + 1)) = false -> ~ contains p s.
Proof.
  intros p s Hx (a & b & ->). assert (Hin : existsb (fun k => has_prefix p (skipn k (a ++ p ++ b))) (seq 0 (List.length (a ++ p ++ b) + 1)) = true).
  { apply existsb_exists. exists (List.length a). split; [apply in_seq; rewrite app_length; lia|].
    rewrite skipn_app, skipn_all, Nat.sub_diag. cbn [skipn app]. apply has_prefix_app. }
  congruence.
Qed.
Ltac notin := vm_compute; intuition discriminate.

Section Ex.
Variable eof : Z.
Variable pct : bool.
Let E := env0 eof pct.

(* a document: declaration, comment, attribute, text, child, reference *)
Definition ex_src : str := s_ "<?xml version='1.0' encoding='utf-8'?><!--c--><a x='1'>hi<p:b xmlns:p='u'/>&lt;</a>".
Definition ex_events : list event :=
  [EComment (s_ "c"); EStartElement (s_ "a") [] [] [] [AAttr (s_ "x") [] (s_ "1")]; ECharacters (s_ "hi");
   EStartElement (s_ "b") (s_ "p") (s_ "u") [Some (s_ "p", s_ "u")] []; EEndElement (s_ "b") (s_ "p") (s_ "u");
   ECharacters (s_ "<"); EEndElement (s_ "a") [] []].
Lemma ex_atts : atts E (s_ " x='1'") [AAttr (s_ "x") [] (s_ "1")] [].
Proof.
  refine (at_attr E (s_ " ") [] (s_ "x") [] [] 39 (s_ "1") (s_ "1") [] [] [] _ _ _ _ _ _ _ _ _ _).
  - discriminate.
  - lit.
  - split; [left; reflexivity|nc].
  - discriminate.
  - discriminate.
  - constructor.
  - constructor.
  - right; reflexivity.
  - refine (al_char 39 49 [] [] _ _ _ _ _ _); try reflexivity; try discriminate. constructor.
  - constructor. constructor.
Qed.
Lemma ex_ns : atts E (s_ " xmlns:p='u'") [] [(s_ "p", s_ "u")].
Proof.
  refine (at_decl E (s_ " ") (s_ "p") [] [] 39 (s_ "u") (s_ "u") [] [] [] _ _ _ _ _ _ _ _ _ _ _ _ _); try discriminate; try reflexivity; try lit.
  - nc.
  - right; reflexivity.
  - refine (al_char 39 117 [] [] _ _ _ _ _ _); try reflexivity; try discriminate. constructor.
  - constructor. constructor.
Qed.
Lemma ex_document : document E ex_src {| di_version := s_ "1.0"; di_encoding := Some (s_ "utf-8"); di_standalone := None |}
  ex_events [(s_ "p", s_ "u")].
Proof.
  refine (d_decl E (s_ "<?xml version='1.0' encoding='utf-8'?>") (s_ "1.0") (Some (s_ "utf-8")) None (s_ "<!--c-->")
    (s_ "<a x='1'>hi<p:b xmlns:p='u'/>&lt;</a>") [] [EComment (s_ "c")] (tl ex_events) [] [(s_ "p", s_ "u")] _ _ _ _ _).
  - refine (xd (s_ "1.0") (s_ " version='1.0'") (Some (s_ "utf-8")) (s_ " encoding='utf-8'") None [] _ _ _ eq_refl).
    + exists 49, 48, []. repeat split; constructor.
    + refine (ps "version" _ (s_ " ") [] [] 39 _ _ _ _ _); [discriminate|lit|lit|lit|auto].
    + split; [exists 117, (s_ "tf-8"); repeat split; lit|].
      refine (ps "encoding" _ (s_ " ") [] [] 39 _ _ _ _ _); [discriminate|lit|lit|lit|auto].
  - intros n Hn. inversion Hn; subst. left; reflexivity.
  - refine (m_comment E (s_ "c") (s_ "c") [] [] _ _ _); [|repeat constructor; discriminate|constructor].
    split; [lit|]. split; [apply no_infix; reflexivity|right; discriminate].
  - refine (e_full E [] [] (s_ "a") (s_ " x='1'") _ [] [] (s_ "hi<p:b xmlns:p='u'/>&lt;")
      [ECharacters (s_ "hi"); EStartElement (s_ "b") (s_ "p") (s_ "u") [Some (s_ "p", s_ "u")] []; EEndElement (s_ "b") (s_ "p") (s_ "u"); ECharacters (s_ "<")]
      [(s_ "p", s_ "u")] _ ex_atts _ _ _).
    + split; [left; reflexivity|nc].
    + split; reflexivity.
    + refine (c_text E _ (s_ "hi") (s_ "hi") (s_ "<p:b xmlns:p='u'/>&lt;") _ _ _ _ _ _).
      * split; [discriminate|]. split; [lit|]. split; [notin|]. split; [notin|]. apply no_infix; reflexivity.
      * repeat constructor; discriminate.
      * right; left; reflexivity.
      * refine (c_elem E _ (s_ "<p:b xmlns:p='u'/>") (s_ "&lt;") [_; _] [(s_ "p", s_ "u")] [_] [] _ _).
        -- refine (e_empty E _ (s_ "p") (s_ "b") (s_ " xmlns:p='u'") _ [(s_ "p", s_ "u")] (s_ "u") _ ex_ns _).
           ++ split; [right; nc|nc].
           ++ reflexivity.
        -- refine (c_ref E _ (s_ "lt;") 60 [] [] [] _ _ _); [reflexivity|discriminate|constructor].
    + intros x Hx; discriminate.
  - constructor.
Qed.
Lemma ex_once : declared_once ex_events [(s_ "p", s_ "u")].
Proof. split; [repeat constructor; intros []|]. intros [Hx|[]]. discriminate. Qed.

(* a place: after  <a x='1'>hi<b>  *)
Lemma ex_place : place E (s_ "<a x='1'>hi<b>") (s_ "b") [] [].
Proof.
  refine (pl E [] [] (s_ "a") (s_ " x='1'") _ [] [] (s_ "hi<b>") [s_ "b"] [] [] _ _ ex_atts _ _ _ _ _).
  - apply br_plain with (e := []); [constructor|]. intros r Hr; discriminate.
  - split; [left; reflexivity|nc].
  - split; reflexivity.
  - refine (in_child E [] (s_ "hi") [ECharacters (s_ "hi")] [] [] (s_ "b") [] [] [] [] [] [] [] [] _ _ _ _ _ _).
    + refine (c_text E _ (s_ "hi") (s_ "hi") [] _ _ _ _ _ _); [|repeat constructor; discriminate|left; reflexivity|constructor].
      split; [discriminate|]. split; [lit|]. split; [notin|]. split; [notin|]. apply no_infix; reflexivity.
    + split; [left; reflexivity|nc].
    + constructor. constructor.
    + split; reflexivity.
    + constructor. constructor.
    + discriminate.
  - intros x Hx; discriminate.
  - constructor.
  - intros [].
Qed.
End Ex.

(* a handler that knows one entity, e, whose text refers to itself *)
Definition loopH : handler unit := {|
  h_event := fun s _ _ => (s, HNil);
  h_getEntity := fun s _ n => (s, if str_eqb n (s_ "e") then Answer (Some (Real {| e_id := 1; e_name := s_ "e"; e_type := InternalGeneralEntity; e_content := s_ "<b/>&e;" |})) false
                                  else Answer None true);
  h_getPEntity := fun s _ _ => (s, Answer None true); h_setOrig := fun s _ _ => s; h_mixed := fun _ _ => None;
  h_docEntity := fun _ _ => None; h_createAttr := fun s _ _ _ => (s, Ret tt);
  h_chunkEnter := fun s => s; h_chunkLeave := fun _ s => s |}.

Lemma calm_plain : forall E l, ~ In 58 l -> ~ In 33 l -> calm E l.
Proof.
  intros E l H1 H2 pre suf Hl. refine (conj _ (conj _ _)); intros r Hr; exfalso; subst suf.
  - apply H2. rewrite Hl. apply in_or_app; right. right; left; reflexivity.
  - apply H2. rewrite Hl. apply in_or_app; right. right; left; reflexivity.
  - apply H1. rewrite Hl. apply in_or_app; right. left; reflexivity.
Qed.
Lemma suffix_in : forall (l l' : list Z) x, suffix l' l -> In x l' -> In x l.
Proof. intros l l' x (p & ->) Hx. apply in_or_app; auto. Qed.
Lemma ascii_suffix : forall l l', Forall (fun c => 0 <= c < 128) l -> suffix l' l -> runes_of l' = l'.
Proof. intros l l' Hl (p & ->). apply Forall_app in Hl. apply runes_ascii; apply Hl. Qed.

Definition loop_src : str := s_ "<r>&e;</r>".
Lemma loop_ascii : forall l', suffix l' loop_src -> runes_of l' = l'.
Proof. intros l' Hs. eapply ascii_suffix; [|exact Hs]. vm_compute. repeat constructor; discriminate. Qed.
Lemma loop_calm : forall eof pct c rest, suffix rest loop_src -> calm (env0 eof pct) (decode (env0 eof pct) c rest).
Proof.
  intros eof pct c rest Hs. cbn [decode env0]. rewrite (loop_ascii _ Hs).
  apply calm_plain; intros Hx; apply (suffix_in loop_src) in Hx; auto; revert Hx; notin.
Qed.
Lemma loop_nice : forall eof pct h v n, True -> True /\ forall e b, snd (h_getEntity loopH h v n) = Answer (Some (Real e)) b ->
  Term.nice (env0 eof pct) 7 e.
Proof.
  intros eof pct h v n _. split; [auto|]. intros e b He. cbn [h_getEntity loopH snd] in He. destruct (str_eqb n (s_ "e")); [|discriminate He]. injection He as <- _.
  intros _. split; [vm_compute; repeat constructor|]. apply calm_plain; notin.
Qed.
(* the entities that documents for loopH refer to *)
Definition only_e (n : str) : Prop := n = s_ "e".
Lemma refs_cases : forall eof pct l, (forall pre c rest, l = pre ++ 38 :: c :: rest -> c = 101 /\ hd 0 rest = 59) ->
  NoPanic.refs_ok (env0 eof pct) only_e l.
Proof.
  intros eof pct l Hl pre c name rest He Hc Hn Hr. destruct (Hl pre c (name ++ rest) He) as [-> Hh]. right.
  destruct name as [|x name]; [reflexivity|]. cbn in Hh. subst x. inversion Hn as [|? ? Hx]; subst. discriminate Hx.
Qed.
Fixpoint amps_ok (l : list Z) : bool :=
  match l with
  | [] => true
  | x :: t => (if x =? 38 then match t with c :: r => (c =? 101) && (hd 0 r =? 59) | [] => true end else true) && amps_ok t
  end.
Lemma amps_ok_spec : forall l pre c rest, amps_ok l = true -> l = pre ++ 38 :: c :: rest -> c = 101 /\ hd 0 rest = 59.
Proof.
  induction l as [|x l IH]; intros pre c rest Ha Hl; [destruct pre; discriminate|]. cbn [amps_ok] in Ha. apply andb_true_iff in Ha as [H1 H2].
  destruct pre as [|y pre]; cbn [app] in Hl; inversion Hl; subst; [|eapply IH; eauto].
  rewrite Z.eqb_refl in H1. apply andb_true_iff in H1 as [H3 H4]. apply Z.eqb_eq in H3, H4. auto.
Qed.
Lemma loop_refs : forall eof pct, NoPanic.refs_ok (env0 eof pct) only_e loop_src.
Proof. intros eof pct. apply refs_cases. intros pre c rest. apply amps_ok_spec. reflexivity. Qed.
Lemma loop_text_refs : forall eof pct, NoPanic.refs_ok (env0 eof pct) only_e (s_ "<b/>&e;").
Proof. intros eof pct. apply refs_cases. intros pre c rest. apply amps_ok_spec. reflexivity. Qed.
Lemma loop_entity : forall eof pct h v n, True -> only_e n -> True /\
  exists e, snd (h_getEntity loopH h v n) = Answer (Some (Real e)) false /\
    (e_type e = InternalGeneralEntity -> NoPanic.refs_ok (env0 eof pct) only_e (runes_of (e_content e))).
Proof. intros eof pct h v n _ ->. split; [auto|]. eexists. split; [reflexivity|]. intros _. apply (loop_text_refs eof pct). Qed.
Lemma loop_by : forall eof pct c rest, suffix rest loop_src ->
  NoPanic.refs_ok (env0 eof pct) only_e (decode (env0 eof pct) c rest) /\ NoPanic.no_doctype (decode (env0 eof pct) c rest).
Proof.
  intros eof pct c rest Hs. cbn [decode env0]. rewrite (loop_ascii _ Hs). split; [eapply NoPanic.refs_suffix; [apply loop_refs|auto]|].
  intros pre r Hr. assert (In 33 rest) by (rewrite Hr; apply in_or_app; right; right; left; reflexivity).
  apply (suffix_in loop_src) in H; auto. revert H; notin.
Qed.

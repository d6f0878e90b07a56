(* An accepted document that is not well-formed, and one that uses several
   leniencies. *)
From Verif Require Import Base Utf8 Utf8Proofs Encoding XmlSpec Scan Parser Grammar ScanProofs EncodingProofs Sample Heap TreeBuilder Loose LooseLex LooseDecl LooseProofs LooseDoc LooseTree XmlEx.
From Coq Require Import ZifyBool.

Definition colon_src : list Z := s_ "<:/>".
Lemma misc_no_root : forall E s evs r t, misc E s evs -> s ++ r = 60 :: 58 :: t -> s = [].
Proof.
  intros E s evs r t Hm Hs. destruct Hm; auto; cbn in Hs; try discriminate. injection Hs as -> _. discriminate.
Qed.
Lemma colon_not_element : forall eof ns s evs d r t, element (env0 eof false) ns s evs d -> s ++ r = 60 :: 58 :: t -> False.
Proof.
  assert (Hq : forall eof p l r t, qnamed (env0 eof false) p l -> s_ "<" ++ qname p l ++ r = 60 :: 58 :: t -> False).
  { intros eof p l r t [Hp Hl] Hs. destruct p as [|c p].
    - destruct l as [|c l]; [destruct Hl as [[] _]|]. cbn in Hs. injection Hs as -> _. destruct Hl as [[Hl _] _]. vm_compute in Hl. discriminate.
    - destruct Hp as [Hp|[[Hp _] _]]; [discriminate|]. cbn in Hs. injection Hs as -> _. vm_compute in Hp. discriminate. }
  intros eof ns s evs d r t He Hs. destruct He; rewrite <- !app_assoc in Hs; eapply Hq; eauto.
Qed.
Lemma colon_not_document : forall eof i evs d, ~ document (env0 eof false) colon_src i evs d.
Proof.
  intros eof i evs d Hd. remember colon_src as src eqn:Hsrc. unfold colon_src in Hsrc. cbn in Hsrc. destruct Hd as [m1 x m2 e1 e2 e3 d H1 H2 H3 _|h v enc sa m1 x m2 e1 e2 e3 d Hh _ H1 H2 H3].
  - assert (m1 = []) by (eapply misc_no_root; [exact H1|exact Hsrc]). subst m1. cbn [app] in Hsrc. eapply colon_not_element; eauto.
  - destruct Hh. cbn in Hsrc. discriminate.
Qed.

(* a tree builder's run: the outcome and the events *)
Definition tree_run (x : str) : outcome gerr unit * list event :=
  let '(o, s) := Parse (env0 0 false) tb (treeH 60) 400 tb_init x in (o, rev (map fst (tr s))).
Definition sloppy : str := s_ "<r a#'1'b= c='2'><x>/><p xmlns:p='u'/><p:q/>&#4294967361;<!--xab" ++ [1] ++ s_ "</r>".
Lemma sloppy_run : tree_run sloppy = (Ret tt,
  [ESetDocumentLocator; EStartDocument;
   EStartElement (s_ "r") [] [] [] [AAttr (s_ "a") [] (s_ "1"); AAttr (s_ "b") [] []; AAttr (s_ "c") [] (s_ "2")];
   EStartElement (s_ "x") [] [] [] []; EEndElement (s_ "x") [] [];
   EStartElement (s_ "p") [] [] [Some (s_ "p", s_ "u")] []; EEndElement (s_ "p") [] [];
   EStartElement (s_ "q") (s_ "p") (s_ "u") [] []; EEndElement (s_ "q") (s_ "p") (s_ "u");
   ECharacters (s_ "A"); EComment (s_ "x"); EEndElement (s_ "r") [] []; EEndDocument]).
Proof. vm_compute. reflexivity. Qed.
Lemma letters_legal : forall eof pct c, isLetter (env0 eof pct) c || isDigit (env0 eof pct) c = true -> xml_char c = true.
Proof. intros eof pct c Hc. cbn in Hc. unfold sampleLetter in Hc. unfold xml_char. lia. Qed.

Definition plain_src : list Z := s_ "<r a='1'>x</r>".
Lemma plain_body : forall eof, lbody (fun _ => False) (env0 eof false) plain_src
  [EStartElement (s_ "r") [] [] [] [AAttr (s_ "a") [] (s_ "1")]; ECharacters (s_ "x"); EEndElement (s_ "r") [] []] [].
Proof.
  intros eof. set (E := env0 eof false).
  assert (Hn : forall c, sampleLetter c = true -> legal c = true -> lname (fun _ => False) E [c]).
  { intros c Hc Hl. split; [|split; [constructor; auto|cbn; lia]]. split; [left; unfold name_start; cbn; rewrite Hc; reflexivity|constructor]. }
  change plain_src with ([] ++ (s_ "<" ++ s_ "r a='1'" ++ s_ ">" ++ s_ "x" ++ s_ "</" ++ qname [] (s_ "r") ++ s_ ">") ++ [] ++ []).
  match goal with |- lbody _ _ _ ?l _ => replace l with ([] ++ l ++ [] ++ []) by reflexivity end.
  eapply (lb _ _ _ _ _ _ _ _ _ _ [] []); [constructor| |constructor|constructor].
  match goal with |- lelement _ _ _ _ _ ?l _ _ => change l with ([EStartElement (utf8 (s_ "r")) (utf8 []) [] (reported 0 []) [AAttr (utf8 (s_ "a")) (utf8 []) (s_ "1")]] ++ [ECharacters (utf8 (s_ "x"))] ++ [EEndElement (utf8 (s_ "r")) (utf8 []) []]) end.
  match goal with |- lelement ?o ?E ?ns ?t ?s ?e _ ?t' => change (lelement o E ns t s e ([] ++ []) []) end.
  eapply le_full with (tab1 := []).
  - change (s_ "r a='1'") with (s_ "r" ++ (s_ " " ++ s_ "a='1'" ++ [])).
    apply (lt _ _ _ _ _ _ _ _ _ [] _ _).
    + change (s_ "r") with (s_ "r" ++ []) at 1. apply lq_plain; [apply Hn; reflexivity|left; reflexivity].
    + discriminate.
    + apply lt_attr.
      * split; [repeat constructor|left; discriminate].
      * change (s_ "a='1'") with (s_ "a" ++ [] ++ [61] ++ [] ++ s_ "'1'"). apply la; [|constructor|auto|constructor|].
        -- change (s_ "a") with (s_ "a" ++ []) at 1. apply lq_plain; [apply Hn; reflexivity|left; reflexivity].
        -- change (s_ "'1'") with ([39] ++ s_ "1" ++ [39]). apply lv_literal; [auto|]. change (lattlit (fun _ => False) 39 (49 :: []) (utf8 [49] ++ [])). apply ll_char; try reflexivity; try lia. constructor.
      * intros [_ Hx]. discriminate.
      * discriminate.
      * constructor. constructor.
    + reflexivity.
    + intros Hx. contradiction.
    + left. cbn. split; reflexivity.
    + left. reflexivity.
  - change (s_ "x") with (s_ "x" ++ []) at 1. eapply lc_text with (t' := s_ "x"); [|apply eol_char; [discriminate|constructor]|left; reflexivity|left; reflexivity|constructor].
    split; [discriminate|]. split; [repeat constructor|]. split; [intros [Hx|[]]; discriminate|]. split; [intros [Hx|[]]; discriminate|].
    intros (a & b & Hab). apply (f_equal (@List.length Z)) in Hab. rewrite !app_length in Hab. cbn in Hab. lia.
  - intros x Hx. discriminate.
Qed.

Lemma run_inv : forall x o evs, tree_run x = (o, evs) ->
  exists s', Parse (env0 0 false) tb (treeH 60) 400 tb_init x = (o, s') /\ rev (map fst (tr s')) = evs.
Proof.
  intros x o evs. unfold tree_run. generalize (Parse (env0 0 false) tb (treeH 60) 400 tb_init x). intros [o' s'] Hr. injection Hr as -> <-. exists s'. auto.
Qed.
Lemma sloppy_accepted : exists s', Parse (env0 0 false) tb (treeH 60) 400 tb_init sloppy = (Ret tt, s') /\ no_doctype (map fst (tr s')).
Proof.
  destruct (run_inv _ _ _ sloppy_run) as (s' & Hp & Hr). exists s'. split; [exact Hp|]. clear Hp. intros nm p u Hin. apply in_rev in Hin. rewrite Hr in Hin.
  cbn [In] in Hin. repeat (destruct Hin as [Hin|Hin]; [discriminate Hin|]). exact Hin.
Qed.
Lemma colon_accepted : exists src, forall eof, eof_ok eof -> accepted eof src /\ (forall i evs d, ~ document (env0 eof false) src i evs d).
Proof. exists colon_src. intros eof He. split; [|apply colon_not_document]. destruct He as [->| ->]; vm_compute; reflexivity. Qed.
Lemma tree_accepted : forall E, env_ok E ->
  (forall c, isLetter E c || isDigit E c = true -> xml_char c = true) -> (forall n l, over E n l = []) ->
  forall k n bytes s', Parse E tb (treeH k) n tb_init bytes = (Ret tt, s') -> no_doctype (map fst (tr s')) ->
  exists detected text hdr rest enc sa c evs d,
    marked bytes detected text /\ text = hdr ++ rest /\
    ((hdr = [] /\ enc = None /\ sa = None /\ version s' = [] /\ has_prefix (s_ "<?xml") rest = false) \/ lheader all hdr (version s') enc sa) /\
    Load (lower E) (match enc with Some e => e | None => detected end) = Some c /\
    lbody all E (decode E c rest) evs d /\
    encoding s' = text_of enc /\ standalone s' = sa_of sa /\
    rev (map fst (tr s')) = ESetDocumentLocator :: EStartDocument :: evs ++ [EEndDocument].
Proof.
  intros E OK NC OV k n bytes s' Hp Hno. eapply (accepted_is_loose E OK NC OV tb (treeH k) (fun s => bare (tb_heap s))); eauto.
  - intros h v e Hh He. apply tree_event; auto.
  - intros h v nm Hh. apply tree_entity; auto.
  - apply tree_init.
Qed.

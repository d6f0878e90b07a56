(* What a document type declaration means for the simplest documents: one
   element that refers to an entity, that has default attributes, or whose
   attribute is declared; and a handler that remembers the entities. *)
From Coq Require Import Permutation ZifyBool.
From Verif Require Import Heap Dump DtdProofs DtdHistory.
From Verif Require Import Base Utf8 Utf8Proofs XmlSpec Encoding Scan ScanProofs Parser Effects LexProofs TextProofs Complete DocComplete
  Legal Sample Content ContentProofs Doctype DoctypeAttr DoctypeContent DoctypeSubset DoctypeDoc.
From Verif Require Import Grammar.
Local Open Scope Z_scope.

(* accepts every event and remembers the general entities *)
Definition stored (s : list (str * str)) (n : str) : option str := option_map snd (find (fun e => str_eqb (fst e) n) s).
Definition storeH : handler (list (str * str)) := {|
  h_event := fun s _ e =>
    (match e with EEntityDecl n t _ _ c => if t =? InternalGeneralEntity then (n, c) :: s else s | _ => s end, HNil);
  h_getEntity := fun s _ n => (s, match stored s n with
    | Some c => Answer (Some (Real {| e_id := 1; e_name := n; e_type := InternalGeneralEntity; e_content := c |})) false
    | None => Answer None true end);
  h_getPEntity := fun s _ _ => (s, Answer None true); h_setOrig := fun s _ _ => s; h_mixed := fun _ _ => None;
  h_docEntity := fun _ _ => None; h_createAttr := fun s _ _ _ => (s, Ret tt);
  h_chunkEnter := fun s => s; h_chunkLeave := fun _ s => s |}.
Lemma storeH_remembers : remembers storeH stored.
Proof.
  constructor; cbn; auto.
  - intros h v n p s c _. change (InternalGeneralEntity =? InternalGeneralEntity) with true. unfold stored. cbn [find fst snd]. destruct (str_eqb_spec n n); [reflexivity|congruence].
  - intros h v e n He. destruct e; try reflexivity.
    match goal with |- context [?t =? InternalGeneralEntity] => destruct (Z.eqb_spec t InternalGeneralEntity) as [->|]; [|reflexivity] end.
    unfold stored. cbn [find fst].
    match goal with |- context [str_eqb ?m n] => destruct (str_eqb_spec m n) as [->|]; [|reflexivity] end. exfalso. eapply He. reflexivity.
  - intros h v n c Hn. exists 1. rewrite Hn. reflexivity.
  - intros. discriminate.
Qed.

Section P.
Variable E : env.
Hypothesis OK : env_ok E.
Variable S : Type.
Variable H : handler S.
Variable known : S -> str -> option str.
Hypothesis R : remembers H known.

Lemma utf8_empty : utf8 [] = []. Proof. reflexivity. Qed.
Lemma simple : forall x ds e2 y e4, doctype E x ds e2 -> fine ds -> delement E ds max_entity_depth true [] y e4 [] ->
  exists N, forall bom n h, bom_ok bom -> (N <= n)%nat -> (forall n, In n (map fst (entities ds)) -> known h (utf8 n) = None) ->
  exists evs' s', Forall2 same (e2 ++ e4) evs' /\ Parse E S H n h (bom ++ utf8 (x ++ y)) = (Ret tt, s') /\
    rev (map fst (tr s')) = ESetDocumentLocator :: EStartDocument :: evs' ++ [EEndDocument].
Proof.
  intros x ds e2 y e4 Hx Hf Hy.
  assert (Hd : ddocument E (x ++ y) {| di_version := []; di_encoding := None; di_standalone := None |} ds (e2 ++ e4) []).
  { pose proof (dd_plain E [] x [] y [] ds [] e2 [] e4 [] [] (m_nil E) Hx (m_nil E) Hy (m_nil E) Hf) as D. cbn [app] in D. rewrite !app_nil_r in D.
    apply D. discriminate. }
  apply (ddocument_events E OK S H known R _ _ _ _ _ Hd). split; [constructor|intros []].
Qed.

Definition start (ds : list decl) (l : list Z) (a : list attr) : event :=
  EStartElement (utf8 l) [] [] [] (a ++ map (fun x => ADefault (fst x) [] (snd x)) (defaults ds (utf8 l))).

Lemma included : forall x ds e2 l n t evs1, doctype E x ds e2 -> fine ds -> ncname E l -> In (n, t) (entities ds) ->
  dcontent E ds 19 false [] t evs1 [] ->
  exists N, forall bom k h, bom_ok bom -> (N <= k)%nat -> (forall n, In n (map fst (entities ds)) -> known h (utf8 n) = None) ->
  exists evs' s', Forall2 same (e2 ++ [start ds l []] ++ evs1 ++ [EReference (utf8 n); EEndElement (utf8 l) [] []]) evs' /\
    Parse E S H k h (bom ++ utf8 (x ++ s_ "<" ++ l ++ s_ ">&" ++ n ++ s_ ";</" ++ l ++ s_ ">")) = (Ret tt, s') /\
    rev (map fst (tr s')) = ESetDocumentLocator :: EStartDocument :: evs' ++ [EEndDocument].
Proof.
  intros x ds e2 l n t evs1 Hx Hf Hl Hn Ht.
  apply (simple x ds e2 (s_ "<" ++ l ++ s_ ">&" ++ n ++ s_ ";</" ++ l ++ s_ ">")
    ([start ds l []] ++ evs1 ++ [EReference (utf8 n); EEndElement (utf8 l) [] []])); auto.
  assert (D : dcontent E ds max_entity_depth true [] (38 :: n ++ [59] ++ []) (evs1 ++ EReference (utf8 n) :: []) []).
  { apply (dc_entity E ds 19 true [] n t evs1 [] [] [] []); auto; constructor. }
  pose proof (de_full E ds max_entity_depth true [] [] l [] [] [] [] (38 :: n ++ [59] ++ []) (evs1 ++ [EReference (utf8 n)]) []) as X.
  cbn [qname] in X. replace (s_ "<" ++ l ++ s_ ">&" ++ n ++ s_ ";</" ++ l ++ s_ ">") with
    (s_ "<" ++ l ++ [] ++ s_ ">" ++ (38 :: n ++ [59] ++ []) ++ s_ "</" ++ l ++ s_ ">").
  2:{ cbn [app]. rewrite <- !app_assoc. reflexivity. }
  replace ([start ds l []] ++ evs1 ++ [EReference (utf8 n); EEndElement (utf8 l) [] []]) with
    ([EStartElement (utf8 l) (utf8 []) [] (map Some []) (reported ds (utf8 l) [])] ++ (evs1 ++ [EReference (utf8 n)]) ++ [EEndElement (utf8 l) (utf8 []) []]).
  2:{ rewrite <- app_assoc. reflexivity. }
  apply X; auto.
  - split; [left; reflexivity|exact Hl].
  - constructor. constructor.
  - split; [intros ? ? ? []|intros ? ? []].
  - split; reflexivity.
  - intros y Hy. discriminate.
Qed.

Lemma supplied : forall x ds e2 l, doctype E x ds e2 -> fine ds -> ncname E l ->
  exists N, forall bom k h, bom_ok bom -> (N <= k)%nat -> (forall n, In n (map fst (entities ds)) -> known h (utf8 n) = None) ->
  exists evs' s', Forall2 same (e2 ++ [start ds l []; EEndElement (utf8 l) [] []]) evs' /\
    Parse E S H k h (bom ++ utf8 (x ++ s_ "<" ++ l ++ s_ "/>")) = (Ret tt, s') /\
    rev (map fst (tr s')) = ESetDocumentLocator :: EStartDocument :: evs' ++ [EEndDocument].
Proof.
  intros x ds e2 l Hx Hf Hl. apply (simple x ds e2 (s_ "<" ++ l ++ s_ "/>") [start ds l []; EEndElement (utf8 l) [] []]); auto.
  pose proof (de_empty E ds max_entity_depth true [] [] l [] [] [] []) as X. cbn [qname] in X. apply X.
  - split; [left; reflexivity|exact Hl].
  - constructor. constructor.
  - split; [intros ? ? ? []|intros ? ? []].
  - split; reflexivity.
Qed.

Lemma same_key : forall ds y z, NoDup (map akey (declared ds)) -> In y (declared ds) -> In z (declared ds) -> akey y = akey z -> y = z.
Proof.
  intros ds y z. induction (declared ds) as [|w ws IH]; intros Hnd Hy Hz Hk; [destruct Hy|]. cbn [map] in Hnd. inversion Hnd as [|? ? Hn Hnd']; subst.
  destruct Hy as [->|Hy], Hz as [->|Hz]; auto; exfalso; apply Hn; [rewrite Hk|rewrite <- Hk]; apply in_map; auto.
Qed.

Lemma normalised : forall x ds e2 l a b e1 e3 q lit v, doctype E x ds e2 -> fine ds -> ncname E l -> In (([], l), a) (declared ds) ->
  (ad_default a = Required \/ ad_default a = Implied) -> ad_name a <> s_ "xmlns" -> b <> [] -> blanks b -> blanks e1 -> blanks e3 ->
  q = 34 \/ q = 39 -> attlit q lit v -> is_cdata (ad_type a) = true \/ v = [] \/ tokens v <> [] ->
  exists N, forall bom k h, bom_ok bom -> (N <= k)%nat -> (forall n, In n (map fst (entities ds)) -> known h (utf8 n) = None) ->
  exists evs' s', Forall2 same (e2 ++ [start ds l [AAttr (utf8 (ad_name a)) [] (typed (ad_type a) v)]; EEndElement (utf8 l) [] []]) evs' /\
    Parse E S H k h (bom ++ utf8 (x ++ s_ "<" ++ l ++ (b ++ ad_name a ++ e1 ++ [61] ++ e3 ++ [q] ++ lit ++ [q]) ++ s_ "/>")) = (Ret tt, s') /\
    rev (map fst (tr s')) = ESetDocumentLocator :: EStartDocument :: evs' ++ [EEndDocument].
Proof.
  intros x ds e2 l a b e1 e3 q lit v Hx Hf Hl Ha Hdef Hxn Hb0 Hb He1 He3 Hq Hlit Hv.
  set (t := b ++ ad_name a ++ e1 ++ [61] ++ e3 ++ [q] ++ lit ++ [q]).
  destruct (doctype_names E OK x ds e2 Hx) as [Hgood _].
  assert (Hgood' : forall y, In y (declared ds) -> good E y) by (intros y; rewrite Forall_forall in Hgood; apply Hgood).
  assert (Hna : ncname E (ad_name a)) by (apply (Hgood' _ Ha)).
  assert (Huniq : forall y, In y (declared ds) -> utf8 (qname (fst (fst y)) (snd (fst y))) = utf8 l -> utf8 (ad_name (snd y)) = utf8 (ad_name a) -> y = (([], l), a)).
  { intros y Hy H1 H2. destruct Hf as (_ & _ & Hnd). apply (same_key ds y (([], l), a) Hnd Hy Ha).
    apply (names_same E y (([], l), a)); auto. }
  assert (Htok : tokenised ds (utf8 l) (utf8 (ad_name a)) = negb (is_cdata (ad_type a))).
  { apply eq_true_iff_eq. unfold tokenised. rewrite existsb_exists. split.
    - intros (y & Hy & Hc). apply andb_true_iff in Hc as [Hc Ht]. apply andb_true_iff in Hc as [C1 C2].
      destruct (str_eqb_spec (utf8 (qname (fst (fst y)) (snd (fst y)))) (utf8 l)); [|discriminate].
      destruct (str_eqb_spec (utf8 (ad_name (snd y))) (utf8 (ad_name a))); [|discriminate].
      rewrite (Huniq y) in Ht; auto.
    - intros Ht. exists (([], l), a). split; [auto|]. cbn [fst snd qname]. rewrite Ht.
      destruct (str_eqb_spec (utf8 l) (utf8 l)); [|congruence]. destruct (str_eqb_spec (utf8 (ad_name a)) (utf8 (ad_name a))); [reflexivity|congruence]. }
  assert (Hnodef : ~ In (utf8 (ad_name a)) (map fst (defaults ds (utf8 l)))).
  { intros Hi. apply in_map_iff in Hi as ((n0 & v0) & Hn0 & Hi). cbn [fst] in Hn0. subst n0. unfold defaults in Hi. apply in_flat_map in Hi as (y & Hy & Hi).
    destruct (default_value (ad_type (snd y)) (ad_default (snd y))) as [|w ws] eqn:Hdv; [destruct Hi|].
    destruct (str_eqb_spec (utf8 (qname (fst (fst y)) (snd (fst y)))) (utf8 l)); [|destruct Hi]. destruct Hi as [Hi|[]]. inversion Hi.
    rewrite (Huniq y) in Hdv; auto. cbn [snd] in Hdv. destruct Hdef as [Hd|Hd]; rewrite Hd in Hdv; discriminate. }
  apply (simple x ds e2 (s_ "<" ++ l ++ t ++ s_ "/>") [start ds l [AAttr (utf8 (ad_name a)) [] (typed (ad_type a) v)]; EEndElement (utf8 l) [] []]); auto.
  pose proof (de_empty E ds max_entity_depth true [] [] l t [AAttr (utf8 (ad_name a)) [] v] [] []) as X. cbn [qname] in X.
  replace (start ds l [AAttr (utf8 (ad_name a)) [] (typed (ad_type a) v)]) with
    (EStartElement (utf8 l) (utf8 []) [] (map Some []) (reported ds (utf8 l) [AAttr (utf8 (ad_name a)) [] v])).
  2:{ unfold start, reported. cbn [map value_of qualified]. rewrite Htok. unfold typed. destruct (is_cdata (ad_type a)); reflexivity. }
  apply X.
  - split; [left; reflexivity|exact Hl].
  - pose proof (at_attr E b [] (ad_name a) e1 e3 q lit v [] [] []) as Y. cbn [qname] in Y. rewrite app_nil_r in Y. apply Y; auto; try discriminate.
    + split; [left; reflexivity|exact Hna].
    + constructor. constructor.
  - split; [|intros ? ? []]. intros al ap v0 [Hi|[]]. inversion Hi; subst. cbn [qualified qname]. split; [reflexivity|]. split; [|exact Hnodef].
    rewrite Htok. intros Ht. split; [reflexivity|]. destruct Hv as [Hv|Hv]; [rewrite Hv in Ht; discriminate|exact Hv].
  - split; reflexivity.
Qed.
End P.

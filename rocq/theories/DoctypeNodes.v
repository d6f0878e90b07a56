(* What a document with an internal subset looks like as a tree.  This file is
   specification: it follows what a caller sees through FirstChild and
   NextSibling, and shares with the model the heap, the types of events and of
   declarations, and the constants in them. *)
From Verif Require Import Base Utf8 Scan Parser Content Heap TreeShape Xml Mirror.
From Verif Require Import Doctype DoctypeContent.
From Verif Require Import Grammar.
Local Open Scope Z_scope.

(* the declarations one by one: an attribute list declares each attribute *)
Inductive single :=
| OneEntity (param : bool) (n v : list Z)
| OneElement (p l : list Z) (s : spec)
| OneAttribute (p l : list Z) (a : attdef).
Definition singles (ds : list decl) : list single :=
  flat_map (fun d => match d with
    | Doctype.DEntity b n v => [OneEntity b n v]
    | DElement p l s => [OneElement p l s]
    | DAttlist p l defs => map (OneAttribute p l) defs
    end) ds.

(* the node of a declaration: an entity with its replacement text and the
   literal it was declared with, an element with a content model that admits
   what was declared, an attribute with its type and default *)
Inductive stands_for (E : env) : single -> data -> Prop :=
| sf_entity (b : bool) n v lit : literal_of E lit (utf8 v) ->
    stands_for E (OneEntity b n v)
      (Heap.DEntity (utf8 n) (if b then InternalParameterEntity else InternalGeneralEntity) [] [] (utf8 v) lit)
| sf_element p l sp m : (forall w, stored_lang (spec_code sp) m w <-> spec_lang sp w) ->
    stands_for E (OneElement p l sp) (DElemDecl (utf8 l) (utf8 p) (spec_code sp) m)
| sf_attribute p l a :
    stands_for E (OneAttribute p l a)
      (DAttrDecl (utf8 (qname p l)) (utf8 (ad_name a)) [] (type_code (ad_type a)) (default_code (ad_default a))
         (default_value (ad_type a) (ad_default a)) []).

(* the sibling chain from [o] holds these declarations *)
Inductive decls_at (h : heap) : option ptr -> list data -> Prop :=
| da_nil : decls_at h None []
| da_cons p c r : hget h p = Some c -> decls_at h (l_next (lk c)) r -> decls_at h (Some p) (dat c :: r).

(* The document [d] has this version, encoding and standalone status; its
   children are the nodes [xs1], its internal subset with this name and these
   declarations, and the nodes [xs2]. *)
Definition document_has (h : heap) (d : ptr) (version encoding : str) (standalone : Z)
    (xs1 : list xnode) (name : str) (dd : list data) (xs2 : list xnode) : Prop :=
  exists c dtd cd t k1 k2, hget h d = Some c /\ dat c = DDoc version encoding standalone (Some dtd) None /\
    TreeShape.path h (l_first (lk c)) (k1 ++ dtd :: k2) /\
    Forall2 (node_is h) k1 xs1 /\ Forall2 (node_is h) k2 xs2 /\
    hget h dtd = Some cd /\ dat cd = DDtd name [] [] t /\ decls_at h (l_first (lk cd)) dd.

(* Events with a document type declaration and the nodes they stand for: those
   before the declaration, and those after it.  Comments of the internal subset
   are among the latter: the tree has them behind the subset, not in it.
   Processing instructions in it are left out (C60_pi_refuted). *)
Definition in_subset_event (e : event) : Prop :=
  match e with EComment _ | EEntityDecl _ _ _ _ _ | EElementDecl _ _ _ | EAttributeDecl _ _ _ _ _ _ => True | _ => False end.
Definition comments (es : list event) : list xnode := flat_map (fun e => match e with EComment t => [XComment t] | _ => [] end) es.
Inductive dmirrors : list event -> list xnode -> str -> list xnode -> Prop :=
| dm e1 name es e2 xs1 xs2 : mirrors e1 xs1 -> Forall in_subset_event es -> mirrors e2 xs2 ->
    dmirrors (e1 ++ (EInternalSubset name [] [] :: es ++ [EExternalSubset name [] []]) ++ e2) xs1 name (comments es ++ xs2).

(* element types are declared at most once; the names of attributes and
   entities are in [fine] *)
Definition elements_once (ds : list decl) : Prop :=
  NoDup (flat_map (fun d => match d with DElement p l _ => [(p, l)] | _ => [] end) ds).
(* how long the values are that the tree has to take apart *)
Definition value_len (e : event) : nat := match e with EAttributeDecl _ _ _ _ v _ => List.length v | _ => 0%nat end.

(* ---- looking declarations up ---- *)
Definition parameters_once (ds : list decl) : Prop :=
  NoDup (flat_map (fun d => match d with Doctype.DEntity true n _ => [n] | _ => [] end) ds).
(* what a caller asks for a declaration: the document for an entity, its
   internal subset for an element or an attribute *)
Definition look (d : ptr) (s : single) : HM (option ptr) :=
  match s with
  | OneEntity false n _ => GetEntity (Some d) (utf8 n)
  | OneEntity true n _ => GetParameterEntity (Some d) (utf8 n)
  | OneElement p l _ =>
      x <- getDoc d ;; let '(_, _, _, i, _) := x in dtd <- deref i ;; LookupElement dtd (utf8 l) (utf8 p)
  | OneAttribute p l a =>
      x <- getDoc d ;; let '(_, _, _, i, _) := x in dtd <- deref i ;; LookupAttribute dtd (utf8 (ad_name a)) [] (utf8 (qname p l))
  end.
(* asking finds the node, and changes nothing *)
Definition answered (h : heap) (d : ptr) (s : single) (x : data) : Prop :=
  exists q c, look d s h = (Ret (Some q), h) /\ hget h q = Some c /\ dat c = x.

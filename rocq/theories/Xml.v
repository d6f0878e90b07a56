(* Document trees as values, what it means that a heap holds one, and how one
   is written as text.  This file is specification: it follows what a caller
   sees through FirstChild, NextSibling and the attribute chain, and uses of
   the model only the heap itself and the escaping functions of Escape.v. *)
From Verif Require Import Base Utf8 Escape Heap.

Inductive xnode :=
| XElem (name : str) (ns : option nspair) (defs : list nspair) (atts : list (str * str)) (kids : list xnode)
| XText (s : str)
| XComment (s : str)
| XPI (target content : str)
| XRef (name : str).

(* structural induction over a node and the nodes below it *)
Section XInd.
Variable P : xnode -> Prop.
Hypothesis Helem : forall nm ns defs atts kids, Forall P kids -> P (XElem nm ns defs atts kids).
Hypothesis Htext : forall s, P (XText s).
Hypothesis Hcomment : forall s, P (XComment s).
Hypothesis Hpi : forall t d, P (XPI t d).
Hypothesis Href : forall nm, P (XRef nm).
Fixpoint xnode_rec' (x : xnode) : P x :=
  match x with
  | XElem nm ns defs atts kids =>
      Helem nm ns defs atts kids
        ((fix all (l : list xnode) : Forall P l :=
            match l with
            | [] => Forall_nil P
            | y :: r => Forall_cons y (xnode_rec' y) (all r)
            end) kids)
  | XText s => Htext s
  | XComment s => Hcomment s
  | XPI t d => Hpi t d
  | XRef nm => Href nm
  end.
End XInd.

(* the number of nodes, attributes counted *)
Fixpoint xsize (x : xnode) : nat :=
  S (match x with
     | XElem _ _ _ atts kids => List.length atts + fold_right (fun y n => xsize y + n) 0 kids
     | _ => 0
     end)%nat.
Definition xsizes (l : list xnode) : nat := fold_right (fun y n => xsize y + n)%nat 0%nat l.

(* The attribute chain starting at [o] holds the attributes [l]: each has at
   most one child, a text. *)
Inductive attrs_at (h : heap) : option ptr -> list (str * str) -> Prop :=
| aa_nil : attrs_at h None []
| aa_empty a c nm df r : hget h a = Some c -> dat c = DAttr nm df -> l_first (lk c) = None ->
    attrs_at h (l_next (lk c)) r -> attrs_at h (Some a) ((nm, []) :: r)
| aa_text a c nm df t ct v r : hget h a = Some c -> dat c = DAttr nm df -> l_first (lk c) = Some t ->
    hget h t = Some ct -> dat ct = DText v -> l_next (lk ct) = None ->
    attrs_at h (l_next (lk c)) r -> attrs_at h (Some a) ((nm, v) :: r).

(* The node [p] is [x]; the sibling chain starting at [o] is [l]. *)
Inductive node_is (h : heap) : ptr -> xnode -> Prop :=
| ni_elem p c nm ns defs props atts kids : hget h p = Some c -> dat c = DElem nm ns defs props ->
    attrs_at h props atts -> nodes_at h (l_first (lk c)) kids -> node_is h p (XElem nm ns defs atts kids)
| ni_text p c s : hget h p = Some c -> dat c = DText s -> node_is h p (XText s)
| ni_comment p c s : hget h p = Some c -> dat c = DComment s -> node_is h p (XComment s)
| ni_pi p c t d : hget h p = Some c -> dat c = DPI t d -> l_first (lk c) = None -> node_is h p (XPI t d)
| ni_ref p c nm : hget h p = Some c -> dat c = DRef nm -> node_is h p (XRef nm)
with nodes_at (h : heap) : option ptr -> list xnode -> Prop :=
| na_nil : nodes_at h None []
| na_cons p c x r : hget h p = Some c -> node_is h p x -> nodes_at h (l_next (lk c)) r ->
    nodes_at h (Some p) (x :: r).
Scheme node_is_mut := Induction for node_is Sort Prop
  with nodes_at_mut := Induction for nodes_at Sort Prop.
Combined Scheme node_nodes from node_is_mut, nodes_at_mut.

(* The document [d] has this version, encoding and standalone status, and the
   nodes [l] as children. *)
Definition document_is (h : heap) (d : ptr) (version encoding : str) (standalone : Z) (l : list xnode) : Prop :=
  exists c i x, hget h d = Some c /\ dat c = DDoc version encoding standalone i x /\ nodes_at h (l_first (lk c)) l.

(* The text of a tree. *)
Definition quoted_name (ns : option nspair) (nm : str) : str :=
  match ns with
  | Some (p, _) => match p with [] => nm | _ => p ++ s_ ":" ++ nm end
  | None => nm
  end.
Definition ns_text (d : nspair) : str :=
  match d with
  | (_, []) => []
  | ([], u) => s_ " xmlns=" ++ dumpQuotedString u
  | (p, u) => s_ " xmlns:" ++ p ++ s_ "=" ++ dumpQuotedString u
  end.
Definition att_text (a : str * str) : str :=
  s_ " " ++ fst a ++ s_ "=""" ++ escapeAttrValue (snd a) ++ s_ """".
Definition tag_text (ns : option nspair) (nm : str) (defs : list nspair) (atts : list (str * str)) : str :=
  s_ "<" ++ quoted_name ns nm ++ flat_map ns_text defs ++ flat_map att_text atts.
Fixpoint node_text (x : xnode) : str :=
  match x with
  | XElem nm ns defs atts kids =>
      match kids with
      | [] => tag_text ns nm defs atts ++ s_ "/>"
      | _ => tag_text ns nm defs atts ++ s_ ">" ++ flat_map node_text kids ++
             s_ "</" ++ quoted_name ns nm ++ s_ ">"
      end
  | XText s => escapeText s false
  | XComment s => s_ "<!--" ++ s ++ s_ "-->"
  | XPI _ _ => s_ "<></>"
  | XRef nm => s_ "&" ++ nm ++ s_ ";"
  end.

(* the texts the serialiser does not survive *)
Fixpoint writable (x : xnode) : Prop :=
  match x with
  | XElem _ _ _ _ kids => fold_right (fun y P => writable y /\ P) True kids
  | XText s => s <> s_ "textnoenc"
  | _ => True
  end.
Definition writables (l : list xnode) : Prop := fold_right (fun y P => writable y /\ P) True l.

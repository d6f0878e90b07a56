(* What tree a sequence of events describes.  Specification: uses of the model
   only the types of events and of trees. *)
From Verif Require Import Base Utf8 Scan Parser Heap Xml.

(* An attribute value as reported: ampersands stay escaped. *)
Definition amp_escaped (rs : list Z) : list Z := flat_map (fun r => if r =? 38 then s_ "&#38;" else [r]) rs.
Definition att_name (prefix local : str) : str := match prefix with [] => local | _ => prefix ++ s_ ":" ++ local end.

(* The attributes of a start event and those of the element: reported
   attributes in order, without those that only come from a declared default
   (the tree gets none of them unless external subsets are loaded). *)
Inductive mirrors_atts : list attr -> list (str * str) -> Prop :=
| ma_nil : mirrors_atts [] []
| ma_attr l p rs a b : Forall (fun r => valid_rune r = true) rs -> mirrors_atts a b ->
    mirrors_atts (AAttr l p (utf8 (amp_escaped rs)) :: a) ((att_name p l, utf8 rs) :: b)
| ma_default l p raw a b : mirrors_atts a b -> mirrors_atts (ADefault l p raw :: a) b.

Definition text_event (e : event) (t : str) : Prop := e = ECharacters t \/ e = EIgnorableWhitespace t.
Definition starts_text (evs : list event) : Prop := exists e t r, evs = e :: r /\ text_event e t.
Definition space (prefix uri : str) : option nspair := match uri with [] => None | _ => Some (prefix, uri) end.

(* a well-nested sequence of events and the nodes it stands for *)
Inductive mirrors : list event -> list xnode -> Prop :=
| mi_nil : mirrors [] []
| mi_text tevs ts evs xs : tevs <> [] -> Forall2 text_event tevs ts -> ~ starts_text evs -> mirrors evs xs ->
    mirrors (tevs ++ evs) (XText (concat ts) :: xs)
| mi_comment s evs xs : mirrors evs xs -> mirrors (EComment s :: evs) (XComment s :: xs)
| mi_pi t d evs xs : mirrors evs xs -> mirrors (EProcessingInstruction t d :: evs) (XPI t d :: xs)
| mi_elem l p u ns atts atts' body kids l' p' u' evs xs :
    mirrors_atts atts atts' -> NoDup (map fst atts') -> mirrors body kids -> mirrors evs xs ->
    mirrors (EStartElement l p u (map Some ns) atts :: body ++ EEndElement l' p' u' :: evs)
            (XElem l (space p u) ns atts' kids :: xs).

(* no text outside of the root element *)
Definition no_text (xs : list xnode) : Prop := forall s, ~ In (XText s) xs.

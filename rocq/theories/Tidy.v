(* The documents that can be written and read back: specification.  Uses the
   grammar of Grammar.v for names and characters, and the trees of Xml.v. *)
From Verif Require Import Base Utf8 XmlSpec Scan Parser Grammar Heap Xml Mirror.

Section Tidy.
Variable E : env.

(* an attribute: a legal name that declares no namespace, any legal value *)
Definition tidy_att (a : str * str) : Prop :=
  exists p l rs, qnamed E p l /\ (p = [] -> l <> s_ "xmlns") /\ p <> s_ "xmlns" /\ legals rs /\
    a = (utf8 (qname p l), utf8 rs).

(* a namespace name: written verbatim between quotes it must stand for itself *)
Definition tidy_uri (u : list Z) : Prop :=
  u <> [] /\ legals u /\ ~ In 60 u /\ ~ In 38 u /\ ~ In 9 u /\ ~ In 10 u /\ ~ In 13 u /\ ~ (In 34 u /\ In 39 u).
Definition tidy_def (d : nspair) : Prop :=
  exists l u, ncname E l /\ l <> s_ "xml" /\ l <> s_ "xmlns" /\ tidy_uri u /\
    utf8 u <> s_ "http://www.w3.org/2000/xmlns/" /\ urlOk E (utf8 u) = true /\ d = (utf8 l, utf8 u).
(* a default namespace only as last declaration, on an element without
   attributes: what follows one is lost (C24_default_reported_refuted) *)
Inductive tidy_defs : list nspair -> list (str * str) -> Prop :=
| tds_none atts : tidy_defs [] atts
| tds_default u : tidy_uri u -> tidy_defs [([], utf8 u)] []
| tds_cons d ds atts : tidy_def d -> tidy_defs ds atts -> tidy_defs (d :: ds) atts.

(* [tidy ns x]: x, where the namespaces ns are bound, has legal names and
   characters, distinct attribute names, and namespaces as its prefixes say *)
Inductive tidy : list nspair -> xnode -> Prop :=
| td_text ns rs : legals rs -> tidy ns (XText (utf8 rs))
| td_comment ns rs : comment_text rs -> eol rs rs -> tidy ns (XComment (utf8 rs))
| td_elem ns p l u defs atts kids : qnamed E p l -> tidy_defs defs atts -> Forall tidy_att atts -> NoDup (map fst atts) ->
    resolves (rev defs ++ ns) (utf8 p) u -> tidies (rev defs ++ ns) kids ->
    tidy ns (XElem (utf8 l) (space (utf8 p) u) defs atts kids)
with tidies : list nspair -> list xnode -> Prop :=
| tds_nil ns : tidies ns []
| tds_node ns x xs : tidy ns x -> tidies ns xs -> tidies ns (x :: xs).

(* the namespace declarations of a tree in document order *)
Fixpoint defs_of (x : xnode) : list nspair :=
  match x with
  | XElem _ _ defs _ kids => defs ++ flat_map defs_of kids
  | _ => []
  end.

(* children of a document: comments, one element, comments; no namespace
   prefix declared twice, the default namespace only by the root (C24) *)
Definition is_comment (x : xnode) : Prop := exists s, x = XComment s.
Definition tidy_document (l : list xnode) : Prop :=
  tidies [] l /\
  exists c1 nm sp defs atts kids c2, l = c1 ++ [XElem nm sp defs atts kids] ++ c2 /\
    Forall is_comment c1 /\ Forall is_comment c2 /\
    NoDup (map fst (defs ++ flat_map defs_of kids)) /\
    (In [] (map fst (defs ++ flat_map defs_of kids)) -> In [] (map fst defs)).
End Tidy.

(* Adjacent texts merged, empty ones dropped. *)
Definition glue (x : xnode) (xs : list xnode) : list xnode :=
  match x with
  | XText [] => xs
  | XText s => match xs with XText s' :: r => XText (s ++ s') :: r | _ => x :: xs end
  | _ => x :: xs
  end.
Fixpoint norm (x : xnode) : xnode :=
  match x with
  | XElem nm sp defs atts kids => XElem nm sp defs atts (fold_right (fun y acc => glue (norm y) acc) [] kids)
  | _ => x
  end.
Definition norms (l : list xnode) : list xnode := fold_right (fun y acc => glue (norm y) acc) [] l.

(* no empty text anywhere *)
Fixpoint no_hollow (x : xnode) : Prop :=
  match x with
  | XElem _ _ _ _ kids => fold_right (fun y P => no_hollow y /\ P) True kids
  | XText s => s <> []
  | _ => True
  end.
Definition no_hollows (l : list xnode) : Prop := fold_right (fun y P => no_hollow y /\ P) True l.

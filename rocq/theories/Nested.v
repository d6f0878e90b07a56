(* Well-nested sequences of tags: specification, using of the model only the trees of Xml.v. *)
From Verif Require Import Base Heap Xml.

(* a name as written in a tag: not empty, none of the delimiters of tags *)
Definition delimiter (c : Z) : bool :=
  (c =? 32) || (c =? 9) || (c =? 10) || (c =? 13) || (c =? 60) || (c =? 62) || (c =? 47) || (c =? 61) || (c =? 34) || (c =? 39).
Definition tag_name (n : str) : Prop := n <> [] /\ Forall (fun c => delimiter c = false) n.

(* attributes: each after a space, its value between two equal quotes that do
   not occur in it, and without < *)
Inductive tag_atts : str -> Prop :=
| ta_nil : tag_atts []
| ta_cons n q v r : tag_name n -> q = 34 \/ q = 39 -> ~ In q v -> ~ In 60 v -> tag_atts r ->
    tag_atts (s_ " " ++ n ++ s_ "=" ++ [q] ++ v ++ [q] ++ r).

(* character data without <, comments without --, and elements each closed by
   the name that opened it *)
Inductive nested : str -> Prop :=
| ne_nil : nested []
| ne_char c s : c <> 60 -> nested s -> nested (c :: s)
| ne_comment b s : (forall x y, b <> x ++ s_ "--" ++ y) -> nested s -> nested (s_ "<!--" ++ b ++ s_ "-->" ++ s)
| ne_empty n a s : tag_name n -> tag_atts a -> nested s -> nested (s_ "<" ++ n ++ a ++ s_ "/>" ++ s)
| ne_elem n a b s : tag_name n -> tag_atts a -> nested b -> nested s ->
    nested (s_ "<" ++ n ++ a ++ s_ ">" ++ b ++ s_ "</" ++ n ++ s_ ">" ++ s).

(* Trees of elements, texts, comments and references whose names are free of
   delimiters, whatever their texts and attribute values; namespace names,
   which are written unescaped, without <, and comments without --. *)
Definition plain_def (d : nspair) : Prop := (fst d = [] \/ tag_name (fst d)) /\ ~ In 60 (snd d).
Fixpoint plain (x : xnode) : Prop :=
  match x with
  | XElem nm ns defs atts kids =>
      tag_name nm /\ (match ns with Some (p, _) => p = [] \/ tag_name p | None => True end) /\ Forall plain_def defs /\
      Forall (fun a => tag_name (fst a) /\ bytes_ok (snd a)) atts /\ fold_right (fun y P => plain y /\ P) True kids
  | XText s => bytes_ok s
  | XComment s => forall x y, s <> x ++ s_ "--" ++ y
  | XPI _ _ => False
  | XRef nm => ~ In 60 nm
  end.

(* What the parser accepts after a document type declaration, and what it
   reports of it.  This is Loose.v with all leniencies allowed and with what the
   declarations change: values of attributes that are declared with a type
   other than CDATA are normalised, attributes with default values are added to
   the start tags, and there are references to the entities declared.  Like
   Loose.v this file is independent of the parser. *)
From Coq Require Import Permutation.
From Verif Require Import Base Utf8 XmlSpec Scan Parser Effects Loose LooseLex Content TermDtd Doctype Grammar LooseDtd.
Local Open Scope Z_scope.

(* ---- what the declarations say of attributes ---- *)
(* element, attribute, type, kind of default, default; in the order of the text *)
Definition att_decls (evs : list event) : list (str * str * Z * Z * str) :=
  flat_map (fun e => match e with EAttributeDecl el a t d v _ => [(el, a, t, d, v)] | _ => [] end) evs.
(* loose: the attribute a of the element el is remembered under the text el:a,
   which other names may give as well *)
Definition label (el a : str) : str := el ++ [58] ++ a.
(* loose: of several types that are declared for an attribute the last counts *)
Fixpoint typed (ds : list (str * str * Z * Z * str)) (k : str) : option Z :=
  match ds with
  | [] => None
  | (el, a, t, _, _) :: r => match typed r k with Some t' => Some t' | None => if str_eqb (label el a) k then Some t else None end
  end.
(* loose: el and a are the local parts of the names in the start tag *)
Definition normalised (ds : list (str * str * Z * Z * str)) (el a : str) : bool :=
  match typed ds (label el a) with Some t => negb (t =? AttrCDATA) && negb (t =? AttrInvalid) | None => false end.
(* of several declarations of an attribute the first gives the default: element,
   attribute and value.
   loose: an empty default is no default *)
Fixpoint first_defaults (seen : list str) (ds : list (str * str * Z * Z * str)) : list (str * str * str) :=
  match ds with
  | [] => []
  | (el, a, _, d, v) :: r =>
      (if existsb (str_eqb (label el a)) seen || str_eqb v [] || (d =? DefImplied) || (d =? DefRequired) then [] else [(el, a, v)])
      ++ first_defaults (label el a :: seen) r
  end.
(* prefix and local part *)
Fixpoint parts (pre a : str) : str * str :=
  match a with [] => ([], pre) | c :: r => if c =? 58 then (pre, r) else parts (pre ++ [c]) r end.
(* the attributes added to the start tag of el *)
Definition added (given : list (str * str * str)) (el : str) : list attr :=
  flat_map (fun x => let '(e, a, v) := x in if str_eqb e el then [ADefault (snd (parts [] a)) (fst (parts [] a)) v] else []) given.

Section S.
Variable E : env.
(* the application answers a query for an entity with the entity of that name *)
Variable honest : Prop.
(* local names of an element and of an attribute: the value is normalised *)
Variable tok : str -> str -> bool.
(* qualified name of an element: the attributes added to its start tag *)
Variable more : str -> list attr.

(* loose: a literal may be missing, its value is empty then *)
Inductive bvalue : list Z -> str -> Prop :=
| bv_none : bvalue [] []
| bv_literal q lit v : q = 34 \/ q = 39 -> dlit E honest q lit v -> bvalue ([q] ++ lit ++ [q]) v.
(* an attribute of the element el, from its name on *)
Inductive battr (el : str) : list Z -> list Z -> list Z -> str -> Prop :=
| ba n p l e1 c e2 w v : lqname all E n p l -> blanks e1 ->
    (* loose: any character in place of '=' *)
    c = 61 \/ (blank c = false /\ (e1 = [] -> (p = [] -> c <> 58) /\ (l = [] -> name_part E c = false))) ->
    blanks e2 -> bvalue w v ->
    battr el (n ++ e1 ++ [c] ++ e2 ++ w) p l (if tok el (utf8 l) then spaced (tokens v) else v).
(* the attributes a and the namespace declarations d of a start tag, see latts *)
Inductive batts (el : str) : list (str * str) -> list Z -> list attr -> list (str * str) -> list (str * str) -> Prop :=
| bt_end tab b : blanks b -> batts el tab b [] [] tab
| bt_attr tab b w p l v s a d tab' :
    blanks b -> battr el w p l v -> ~ (p = [] /\ l = s_ "xmlns") -> p <> s_ "xmlns" -> batts el tab s a d tab' ->
    batts el tab (b ++ w ++ s) (AAttr (utf8 l) (utf8 p) v :: a) d tab'
| bt_decl tab b w l v s a d tab' :
    blanks b -> battr el w (s_ "xmlns") l v -> l <> s_ "xml" -> l <> s_ "xmlns" ->
    v <> [] -> v <> s_ "http://www.w3.org/2000/xmlns/" -> urlOk E v = true -> lookup tab (utf8 l) = [] ->
    spaced_off s -> batts el (push tab (utf8 l) v) s a d tab' ->
    batts el tab (b ++ w ++ s) a ((utf8 l, v) :: d) tab'
| bt_xml tab b w s a d tab' :
    blanks b -> battr el w (s_ "xmlns") (s_ "xml") (s_ "http://www.w3.org/XML/1998/namespace") ->
    spaced_off s -> batts el tab s a d tab' ->
    batts el tab (b ++ w ++ s) a d tab'
| bt_default tab b w v :
    blanks b -> battr el w [] (s_ "xmlns") v ->
    batts el tab (b ++ w) [] [([], v)] (push tab [] v)
| bt_listed tab b w v c s a d tab' :
    blanks b -> battr el w [] (s_ "xmlns") v ->
    blank c = true -> batts el (push tab [] v) (c :: s) a d tab' ->
    batts el tab (b ++ w ++ c :: s) (AAttr (s_ "xmlns") [] v :: a) (([], v) :: d) tab'.
(* a tag from its name to before '>' or '/>', see ltag.  The attributes added
   come last, in some order.
   loose: they are added even if the tag has an attribute of that name *)
Inductive btag (tab : list (str * str)) : list Z -> list Z -> list Z -> str -> list (option (str * str)) -> list attr -> list (str * str) -> Prop :=
| bt n p l t a d tab' u ds : lqname all E n p l -> l <> [] -> batts (utf8 l) tab t a d tab' -> u = lookup tab' (utf8 p) -> (p <> [] -> u <> []) ->
    Permutation ds (more (utf8 (qname p l))) ->
    btag tab (n ++ t) p l u (Loose.reported (List.length d) tab') (a ++ ds) tab'.

(* reports of the content of an element: elements in them are closed *)
Definition balanced (evs : list event) : Prop := forall stk, nested stk evs = Some stk.
Inductive bcontent : list (str * str) -> list Z -> list event -> list (str * str) -> Prop :=
| bc_nil tab : bcontent tab [] [] tab
| bc_text tab t t' e s evs tab' : text_run t -> eol t t' ->
    e = ECharacters (utf8 t') \/ (blanks t /\ e = EIgnorableWhitespace (utf8 t')) ->
    starts_markup s -> bcontent tab s evs tab' -> bcontent tab (t ++ s) (e :: evs) tab'
| bc_ref tab t x s evs tab' : lref all t x s -> bcontent tab s evs tab' ->
    bcontent tab (38 :: t) (ECharacters (utf8 [x]) :: evs) tab'
(* [68] EntityRef: what is reported of the text of the entity comes before the
   reference *)
| bc_entity tab n z rep s evs tab' : xname E n -> drop z -> ~ In n [s_ "lt"; s_ "gt"; s_ "amp"; s_ "apos"; s_ "quot"] -> balanced rep ->
    (honest -> exists inner, rep = inner ++ [EReference (utf8 n)] /\ balanced inner) -> bcontent tab s evs tab' ->
    bcontent tab ([38] ++ n ++ z ++ [59] ++ s) (rep ++ evs) tab'
| bc_comment tab b b' s evs tab' : comment_text b -> eol b b' -> bcontent tab s evs tab' ->
    bcontent tab (s_ "<!--" ++ b ++ s_ "-->" ++ s) (EComment (utf8 b') :: evs) tab'
| bc_open tab b v c s evs tab' : open_comment b v -> legal c = false -> bcontent tab s evs tab' ->
    bcontent tab (s_ "<!--" ++ b ++ c :: s) (EComment v :: evs) tab'
| bc_pi0 tab t z s evs tab' : pitarget E t -> drop z -> bcontent tab s evs tab' ->
    bcontent tab (s_ "<?" ++ t ++ z ++ s_ "?>" ++ s) (EProcessingInstruction (utf8 t) [] :: evs) tab'
| bc_pi tab t z b x s evs tab' : pitarget E t -> drop z -> b <> [] -> blanks b -> pidata x -> bcontent tab s evs tab' ->
    bcontent tab (s_ "<?" ++ t ++ z ++ b ++ x ++ s_ "?>" ++ s) (EProcessingInstruction (utf8 t) (utf8 x) :: evs) tab'
| bc_cdata tab b b' s evs tab' : b <> [] -> ~ In 0 b -> ~ contains (s_ "]]>") b -> eol b b' ->
    bcontent tab s evs tab' ->
    bcontent tab (s_ "<![CDATA[" ++ b ++ s_ "]]>" ++ s) (ECDataBlock (utf8 b') :: evs) tab'
| bc_elem tab x evs1 tab1 s evs tab' : belement tab x evs1 tab1 -> bcontent tab1 s evs tab' ->
    bcontent tab (x ++ s) (evs1 ++ evs) tab'
with belement : list (str * str) -> list Z -> list event -> list (str * str) -> Prop :=
| be_empty tab t p l u k a tab' : btag tab t p l u k a tab' ->
    belement tab (s_ "<" ++ t ++ s_ "/>")
      [EStartElement (utf8 l) (utf8 p) u k a; EEndElement (utf8 l) (utf8 p) u] tab'
| be_slash tab t p l u k a tab' : btag tab t p l u k a tab' ->
    belement tab (s_ "<" ++ t ++ s_ ">" ++ s_ "/>")
      [EStartElement (utf8 l) (utf8 p) u k a; EEndElement (utf8 l) (utf8 p) u] tab'
| be_full tab t p l u k a tab1 s evs tab' : btag tab t p l u k a tab1 ->
    bcontent tab1 s evs tab' -> (forall x, s <> s_ "/>" ++ x) ->
    belement tab (s_ "<" ++ t ++ s_ ">" ++ s ++ s_ "</" ++ qname p l ++ s_ ">")
      ([EStartElement (utf8 l) (utf8 p) u k a] ++ evs ++ [EEndElement (utf8 l) (utf8 p) u]) tab'.

(* a document after its document type declaration *)
Inductive bbody : list Z -> list event -> Prop :=
| bb m1 x m2 z e1 e2 e3 e4 tab : lmisc all E m1 e1 -> belement [] x e2 tab -> lmisc all E m2 e3 -> llast all z e4 ->
    bbody (m1 ++ x ++ m2 ++ z) (e1 ++ e2 ++ e3 ++ e4).
End S.

(* some elements of a list, in its order *)
Inductive some_of {A} : list A -> list A -> Prop :=
| so_nil : some_of [] []
| so_take x a b : some_of a b -> some_of (x :: a) (x :: b)
| so_drop x a b : some_of a b -> some_of a (x :: b).
(* the document can make an attribute of every default *)
Definition creates {S} (H : handler S) : Prop := forall h l p v, exists h', h_createAttr H h l p v = (h', Ret tt).

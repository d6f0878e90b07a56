(* What the parser accepts beyond the grammar of Grammar.v.  The relations
   below extend that grammar by named leniencies: with [ok x] false for every
   leniency x they describe nothing but well-formed documents (LooseStrict.v);
   with all of them allowed they hold of whatever the parser accepts without a
   document type declaration (LooseDoc.v).  As Grammar.v this file is
   independent of the parser. *)
From Verif Require Import Base Utf8 XmlSpec Scan Parser Grammar.

Inductive leniency :=
| NulAfterName     (* one NUL after a name is dropped *)
| ColonFirst       (* a name begins with ':' *)
| NoLocal          (* an attribute name ends with its ':' *)
| NoSpace          (* no white space before an attribute *)
| NotEqual         (* any character in place of '=' *)
| NoValue          (* no literal after it: the value is empty *)
| RawBreak         (* CR LF in a literal gives two spaces *)
| BigNumber        (* the number of a character reference is taken modulo 2^32 *)
| OpenComment      (* a comment ends at an illegal character or at the end of the input *)
| RawCData         (* illegal characters in a CDATA section *)
| SlashEnd         (* /> right after a start tag ends its element *)
| Leak             (* the namespace of a prefix is the first one ever declared for it *)
| Again            (* a default namespace is declared although there is one *)
| Listed           (* a default namespace declaration is also reported as attribute *)
| EmptyDefault     (* xmlns='' (well-formed, but left out of Grammar.v) *)
| XmlPrefix        (* xmlns:xml (well-formed, but left out of Grammar.v) *)
| LooseDecl.       (* an XML declaration with a botched encoding declaration or without white space *)

Section Loose.
Variable ok : leniency -> Prop.
Variable E : env.

Definition nul (z : list Z) : Prop := z = [] \/ (z = [0] /\ ok NulAfterName).
Definition lname (n : list Z) : Prop :=
  match n with [] => False | c :: r =>
    (name_start E c = true \/ (c = 58 /\ ok ColonFirst)) /\ Forall (fun x => name_part E x = true) r end /\
  legals n /\ Z.of_nat (List.length n) <= 50000.
(* [lqname s p l]: s is the qualified name with prefix p and local part l *)
Inductive lqname : list Z -> list Z -> list Z -> Prop :=
| lq_plain n z : lname n -> nul z -> lqname (n ++ z) [] n
| lq_prefix n z m y : lname n -> nul z -> lname m -> nul y -> lqname (n ++ z ++ [58] ++ m ++ y) n m
| lq_nolocal n z : lname n -> nul z -> ok NoLocal -> lqname (n ++ z ++ [58]) n [].

(* int32 of Go *)
Definition wraps (v : Z) : Z := (v + 2147483648) mod 4294967296 - 2147483648.
(* [lref t x s]: after '&', t is a reference to x followed by s *)
Inductive lref : list Z -> Z -> list Z -> Prop :=
| lr_plain t x s : reference t = Some (x, s) -> x <> 65533 -> lref t x s
| lr_dec t v s : number 10 dec_val false 0 t = Some (v, s) -> legal (wraps v) = true -> ok BigNumber -> lref (35 :: t) (wraps v) s
| lr_hex t v s : number 16 hex_val false 0 t = Some (v, s) -> legal (wraps v) = true -> ok BigNumber -> lref (35 :: 120 :: t) (wraps v) s
| lr_nul n x s : reference (n ++ [59]) = Some (x, []) -> hd 0 n <> 35 -> ok NulAfterName -> lref (n ++ 0 :: 59 :: s) x s.

Inductive lattlit (q : Z) : list Z -> str -> Prop :=
| ll_nil : lattlit q [] []
| ll_char c t v : legal c = true -> blank c = false -> c <> q -> c <> 60 -> c <> 38 ->
    lattlit q t v -> lattlit q (c :: t) (utf8 [c] ++ v)
| ll_blank c t v : blank c = true -> (c = 13 -> hd 0 t <> 10) \/ ok RawBreak -> lattlit q t v -> lattlit q (c :: t) (32 :: v)
| ll_ref t x t' v : lref t x t' -> x <> 38 -> lattlit q t' v -> lattlit q (38 :: t) (utf8 [x] ++ v)
| ll_amp t t' v : lref t 38 t' -> lattlit q t' v -> lattlit q (38 :: t) (s_ "&#38;" ++ v).
Inductive lvalue : list Z -> str -> Prop :=
| lv_none : ok NoValue -> lvalue [] []
| lv_literal q lit v : q = 34 \/ q = 39 -> lattlit q lit v -> lvalue ([q] ++ lit ++ [q]) v.
(* an attribute, from its name on *)
Inductive lattr : list Z -> list Z -> list Z -> str -> Prop :=
| la n p l e1 c e2 w v : lqname n p l -> blanks e1 -> c = 61 \/ (ok NotEqual /\ blank c = false /\ (e1 = [] -> (p = [] -> c <> 58) /\ (l = [] -> name_part E c = false))) ->
    blanks e2 -> lvalue w v ->
    lattr (n ++ e1 ++ [c] ++ e2 ++ w) p l v.

(* the namespace bindings made so far in the document, newest first *)
Definition lookup (tab : list (str * str)) (p : str) : str :=
  match bound tab p with Some u => u | None => [] end.
Definition push (tab : list (str * str)) (p u : str) : list (str * str) :=
  match bound tab p with Some _ => tab | None => (p, u) :: tab end.

Definition sep (b : list Z) : Prop := blanks b /\ (b <> [] \/ ok NoSpace).
(* after a namespace declaration: the end of the tag or white space *)
Definition spaced_off (s : list Z) : Prop := s = [] \/ blank (hd 0 s) = true.
(* [latts tab s a d tab']: s holds the attributes a and the declarations d,
   which turn the bindings tab into tab' *)
Inductive latts : list (str * str) -> list Z -> list attr -> list (str * str) -> list (str * str) -> Prop :=
| lt_end tab b : blanks b -> latts tab b [] [] tab
| lt_attr tab b w p l v s a d tab' :
    sep b -> lattr w p l v -> ~ (p = [] /\ l = s_ "xmlns") -> p <> s_ "xmlns" -> latts tab s a d tab' ->
    latts tab (b ++ w ++ s) (AAttr (utf8 l) (utf8 p) v :: a) d tab'
| lt_decl tab b w l v s a d tab' :
    sep b -> lattr w (s_ "xmlns") l v -> l <> s_ "xml" -> l <> s_ "xmlns" ->
    v <> [] -> v <> s_ "http://www.w3.org/2000/xmlns/" -> urlOk E v = true -> lookup tab (utf8 l) = [] ->
    spaced_off s -> latts (push tab (utf8 l) v) s a d tab' ->
    latts tab (b ++ w ++ s) a ((utf8 l, v) :: d) tab'
| lt_xml tab b w s a d tab' :
    sep b -> lattr w (s_ "xmlns") (s_ "xml") (s_ "http://www.w3.org/XML/1998/namespace") -> ok XmlPrefix ->
    spaced_off s -> latts tab s a d tab' ->
    latts tab (b ++ w ++ s) a d tab'
| lt_default tab b w v :
    sep b -> lattr w [] (s_ "xmlns") v -> v <> [] \/ ok EmptyDefault ->
    latts tab (b ++ w) [] [([], v)] (push tab [] v)
| lt_listed tab b w v c s a d tab' :
    sep b -> lattr w [] (s_ "xmlns") v -> v <> [] \/ ok EmptyDefault -> ok Listed ->
    blank c = true -> latts (push tab [] v) (c :: s) a d tab' ->
    latts tab (b ++ w ++ c :: s) (AAttr (s_ "xmlns") [] v :: a) (([], v) :: d) tab'.

(* what is reported as the declarations of a start tag: the last bindings made *)
Definition reported (k : nat) (tab : list (str * str)) : list (option (str * str)) :=
  map Some (rev (firstn k tab)) ++ repeat None (k - List.length tab).

(* the tag of an element, from its name to before '>' or '/>': its name and
   the event that announces it *)
Inductive ltag (ns tab : list (str * str)) : list Z -> list Z -> list Z -> str -> list (option (str * str)) -> list attr ->
    list (str * str) -> list (str * str) -> Prop :=
| lt n p l t a d tab' u : lqname n p l -> l <> [] -> latts tab t a d tab' -> u = lookup tab' (utf8 p) -> (p <> [] -> u <> []) ->
    resolves (rev d ++ ns) (utf8 p) u \/ ok Leak ->
    reported (List.length d) tab' = map Some d \/ ok Again ->
    ltag ns tab (n ++ t) p l u (reported (List.length d) tab') a d tab'.

(* a comment that is not closed: the text reported lacks its last two bytes *)
Definition open_comment (b : list Z) (v : str) : Prop :=
  legals b /\ (forall x y, b = x ++ s_ "--" ++ y -> y = []) /\
  exists c1 c2 b' x y1 y2, b = c1 :: c2 :: b' /\ utf8 b = x ++ [y1; y2] /\ eol x v.

Inductive lcontent (ns : list (str * str)) : list (str * str) -> list Z -> list event -> list (str * str) -> list (str * str) -> Prop :=
| lc_nil tab : lcontent ns tab [] [] [] tab
| lc_text tab t t' e s evs d tab' : text_run t -> eol t t' ->
    e = ECharacters (utf8 t') \/ (blanks t /\ e = EIgnorableWhitespace (utf8 t')) ->
    starts_markup s -> lcontent ns tab s evs d tab' -> lcontent ns tab (t ++ s) (e :: evs) d tab'
| lc_ref tab t x s evs d tab' : lref t x s -> lcontent ns tab s evs d tab' ->
    lcontent ns tab (38 :: t) (ECharacters (utf8 [x]) :: evs) d tab'
| lc_comment tab b b' s evs d tab' : comment_text b -> eol b b' -> lcontent ns tab s evs d tab' ->
    lcontent ns tab (s_ "<!--" ++ b ++ s_ "-->" ++ s) (EComment (utf8 b') :: evs) d tab'
| lc_open tab b v c s evs d tab' : open_comment b v -> legal c = false -> ok OpenComment -> lcontent ns tab s evs d tab' ->
    lcontent ns tab (s_ "<!--" ++ b ++ c :: s) (EComment v :: evs) d tab'
| lc_pi0 tab t z s evs d tab' : pitarget E t -> nul z -> lcontent ns tab s evs d tab' ->
    lcontent ns tab (s_ "<?" ++ t ++ z ++ s_ "?>" ++ s) (EProcessingInstruction (utf8 t) [] :: evs) d tab'
| lc_pi tab t z b x s evs d tab' : pitarget E t -> nul z -> b <> [] -> blanks b -> pidata x -> lcontent ns tab s evs d tab' ->
    lcontent ns tab (s_ "<?" ++ t ++ z ++ b ++ x ++ s_ "?>" ++ s) (EProcessingInstruction (utf8 t) (utf8 x) :: evs) d tab'
| lc_cdata tab b b' s evs d tab' : b <> [] -> ~ In 0 b -> ~ contains (s_ "]]>") b -> legals b \/ ok RawCData -> eol b b' ->
    lcontent ns tab s evs d tab' ->
    lcontent ns tab (s_ "<![CDATA[" ++ b ++ s_ "]]>" ++ s) (ECDataBlock (utf8 b') :: evs) d tab'
| lc_elem tab x evs1 d1 tab1 s evs d tab' : lelement ns tab x evs1 d1 tab1 -> lcontent ns tab1 s evs d tab' ->
    lcontent ns tab (x ++ s) (evs1 ++ evs) (d1 ++ d) tab'
with lelement (ns : list (str * str)) : list (str * str) -> list Z -> list event -> list (str * str) -> list (str * str) -> Prop :=
| le_empty tab t p l u k a d tab' : ltag ns tab t p l u k a d tab' ->
    lelement ns tab (s_ "<" ++ t ++ s_ "/>")
      [EStartElement (utf8 l) (utf8 p) u k a; EEndElement (utf8 l) (utf8 p) u] d tab'
| le_slash tab t p l u k a d tab' : ltag ns tab t p l u k a d tab' -> ok SlashEnd ->
    lelement ns tab (s_ "<" ++ t ++ s_ ">" ++ s_ "/>")
      [EStartElement (utf8 l) (utf8 p) u k a; EEndElement (utf8 l) (utf8 p) u] d tab'
| le_full tab t p l u k a d tab1 s evs d1 tab' : ltag ns tab t p l u k a d tab1 ->
    lcontent (rev d ++ ns) tab1 s evs d1 tab' -> (forall x, s <> s_ "/>" ++ x) ->
    lelement ns tab (s_ "<" ++ t ++ s_ ">" ++ s ++ s_ "</" ++ qname p l ++ s_ ">")
      ([EStartElement (utf8 l) (utf8 p) u k a] ++ evs ++ [EEndElement (utf8 l) (utf8 p) u]) (d ++ d1) tab'.

Inductive lmisc : list Z -> list event -> Prop :=
| lm_nil : lmisc [] []
| lm_blank c s evs : blank c = true -> lmisc s evs -> lmisc (c :: s) evs
| lm_comment b b' s evs : comment_text b -> eol b b' -> lmisc s evs ->
    lmisc (s_ "<!--" ++ b ++ s_ "-->" ++ s) (EComment (utf8 b') :: evs)
| lm_open b v c s evs : open_comment b v -> legal c = false -> ok OpenComment -> lmisc s evs ->
    lmisc (s_ "<!--" ++ b ++ c :: s) (EComment v :: evs)
| lm_pi0 t z s evs : pitarget E t -> nul z -> lmisc s evs ->
    lmisc (s_ "<?" ++ t ++ z ++ s_ "?>" ++ s) (EProcessingInstruction (utf8 t) [] :: evs)
| lm_pi t z b x s evs : pitarget E t -> nul z -> b <> [] -> blanks b -> pidata x -> lmisc s evs ->
    lmisc (s_ "<?" ++ t ++ z ++ b ++ x ++ s_ "?>" ++ s) (EProcessingInstruction (utf8 t) (utf8 x) :: evs).
(* at the end of the input a comment need not be closed at all *)
Inductive llast : list Z -> list event -> Prop :=
| ll_closed : llast [] []
| ll_open b v : open_comment b v -> ok OpenComment -> llast (s_ "<!--" ++ b) [EComment v].

(* a document after its XML declaration: the events and the declarations *)
Inductive lbody : list Z -> list event -> list (str * str) -> Prop :=
| lb m1 x m2 z e1 e2 e3 e4 d tab : lmisc m1 e1 -> lelement [] [] x e2 d tab -> lmisc m2 e3 -> llast z e4 ->
    lbody (m1 ++ x ++ m2 ++ z) (e1 ++ e2 ++ e3 ++ e4) d.

(* a pseudo-attribute; white space before it may be missing *)
Inductive lpseudo (name : string) (v : list Z) : list Z -> Prop :=
| lp b e1 e2 q : blanks b -> blanks e1 -> blanks e2 -> q = 34 \/ q = 39 ->
    lpseudo name v (b ++ s_ name ++ e1 ++ [61] ++ e2 ++ [q] ++ v ++ [q]).
(* what is left of a botched encoding declaration *)
Inductive botched : list Z -> Prop :=
| bo_name b e1 : blanks b -> blanks e1 -> botched (b ++ s_ "encoding" ++ e1)
| bo_equal b e1 e2 : blanks b -> blanks e1 -> blanks e2 -> botched (b ++ s_ "encoding" ++ e1 ++ [61] ++ e2)
| bo_quote b e1 e2 q : blanks b -> blanks e1 -> blanks e2 -> q = 34 \/ q = 39 ->
    botched (b ++ s_ "encoding" ++ e1 ++ [61] ++ e2 ++ [q])
| bo_value b e1 e2 q v z : blanks b -> blanks e1 -> blanks e2 -> q = 34 \/ q = 39 -> enc_name v -> z = [] \/ z = [0] ->
    botched (b ++ s_ "encoding" ++ e1 ++ [61] ++ e2 ++ [q] ++ v ++ z).
Definition yes_no (b : bool) : list Z := s_ (if b then "yes" else "no").
Inductive lheader : list Z -> str -> option str -> option bool -> Prop :=
| lh_strict h v enc sa : xml_decl h v enc sa -> lheader h v enc sa
| lh_tight v sv n se sa ss : version_num v -> pseudo "version" v sv -> enc_name n -> pseudo "encoding" n se ->
    lpseudo "standalone" (yes_no sa) ss -> ok LooseDecl ->
    lheader (s_ "<?xml" ++ sv ++ se ++ ss ++ s_ "?>") v (Some n) (Some sa)
| lh_nul v sv n b e1 e2 q sa ss : version_num v -> pseudo "version" v sv -> enc_name n ->
    blanks b -> blanks e1 -> blanks e2 -> q = 34 \/ q = 39 ->
    match sa with None => ss = [] | Some y => lpseudo "standalone" (yes_no y) ss end -> ok LooseDecl ->
    lheader (s_ "<?xml" ++ sv ++ (b ++ s_ "encoding" ++ e1 ++ [61] ++ e2 ++ [q] ++ n ++ [0; q]) ++ ss ++ s_ "?>") v (Some n) sa
| lh_botched v sv x sa ss : version_num v -> pseudo "version" v sv -> botched x -> lpseudo "standalone" (yes_no sa) ss -> ok LooseDecl ->
    lheader (s_ "<?xml" ++ sv ++ x ++ ss ++ s_ "?>") v None (Some sa).
End Loose.

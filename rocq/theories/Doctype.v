(* A grammar of document type declarations with an internal subset, and of
   content that refers to what they declare, with the events it denotes.  It is
   written from the XML 1.0 recommendation and extends Grammar.v and Content.v;
   only the type of events and the codes in it are shared with the model. *)
From Coq Require Import Permutation.
From Verif Require Import Base Utf8 XmlSpec Scan Parser Content.
From Verif Require Import Grammar.
Local Open Scope Z_scope.

(* 3.3.3: the words of a value between single spaces; white space characters
   have become spaces before *)
Fixpoint split_spaces (cur s : str) : list str :=
  match s with
  | [] => match cur with [] => [] | _ => [cur] end
  | c :: t => if c =? 32 then match cur with [] => split_spaces [] t | _ => cur :: split_spaces [] t end
              else split_spaces (cur ++ [c]) t
  end.
Definition tokens (s : str) : list str := split_spaces [] s.
Fixpoint spaced (ws : list str) : str :=
  match ws with
  | [] => []
  | [w] => w
  | w :: t => w ++ [32] ++ spaced t
  end.

Section Doctype.
Variable E : env.

(* names of entities and elements, of at most 50000 characters as a whole *)
Definition pname (p l : list Z) : Prop := qnamed E p l /\ Z.of_nat (List.length (qname p l)) <= 50000.

(* [9] EntityValue between quotes [q] and the replacement text of the entity
   (4.5): character references are included, references to general entities
   stay; no references to parameter entities *)
Inductive entlit (q : Z) : list Z -> list Z -> Prop :=
| en_nil : entlit q [] []
| en_char c t v : legal c = true -> c <> q -> c <> 37 -> c <> 38 -> (c = 13 -> hd 0 t <> 10) ->
    entlit q t v -> entlit q (c :: t) (c :: v)
| en_num t x t' v : reference (35 :: t) = Some (x, t') -> x <> 65533 -> entlit q t' v ->
    entlit q (38 :: 35 :: t) (x :: v)
| en_bypass n t v : ncname E n -> entlit q t v -> entlit q (38 :: n ++ [59] ++ t) (38 :: n ++ [59] ++ v).

(* [54]-[56] the types without enumerations (see C56_enumeration_refuted) *)
Inductive atype := CDATA | ID | IDREF | IDREFS | ENTITY | ENTITIES | NMTOKEN | NMTOKENS.
Definition keyword (t : atype) : list Z :=
  match t with
  | CDATA => s_ "CDATA" | ID => s_ "ID" | IDREF => s_ "IDREF" | IDREFS => s_ "IDREFS"
  | ENTITY => s_ "ENTITY" | ENTITIES => s_ "ENTITIES" | NMTOKEN => s_ "NMTOKEN" | NMTOKENS => s_ "NMTOKENS"
  end.
(* the constants of /repo/interface.go *)
Definition type_code (t : atype) : Z :=
  match t with
  | CDATA => AttrCDATA | ID => AttrID | IDREF => AttrIDRef | IDREFS => AttrIDRefs
  | ENTITY => AttrEntity | ENTITIES => AttrEntities | NMTOKEN => AttrNmtoken | NMTOKENS => AttrNmtokens
  end.
Definition is_cdata (t : atype) : bool := match t with CDATA => true | _ => false end.

(* [60] what an attribute definition says about the default; the value is the
   one of the literal, before normalisation *)
Inductive adefault := Required | Implied | Fixed (v : str) | Default (v : str).
Definition default_code (d : adefault) : Z :=
  match d with Required => DefRequired | Implied => DefImplied | Fixed _ => DefFixed | Default _ => DefNone end.
(* 3.3.3: the value of a type other than CDATA is normalised *)
Definition typed (t : atype) (v : str) : str := if is_cdata t then v else spaced (tokens v).
Definition default_value (t : atype) (d : adefault) : str :=
  match d with Fixed v | Default v => typed t v | _ => [] end.
Inductive default_text : adefault -> list Z -> Prop :=
| df_required : default_text Required (s_ "#REQUIRED")
| df_implied : default_text Implied (s_ "#IMPLIED")
| df_fixed b q lit v : b <> [] -> blanks b -> q = 34 \/ q = 39 -> attlit q lit v ->
    default_text (Fixed v) (s_ "#FIXED" ++ b ++ [q] ++ lit ++ [q])
| df_default q lit v : q = 34 \/ q = 39 -> attlit q lit v -> default_text (Default v) ([q] ++ lit ++ [q]).
(* a tokenised default must have a token unless it is empty: attrNormalizeSpace
   panics on blank values (C36) *)
Definition default_fits (t : atype) (d : adefault) : Prop :=
  match d with Fixed v | Default v => is_cdata t = true \/ v = [] \/ tokens v <> [] | _ => True end.

Record attdef := { ad_name : list Z; ad_type : atype; ad_default : adefault }.
(* [53] AttDef without the white space before it, which is the one after the
   name of the element or after the definition before *)
Inductive attdef_text (a : attdef) : list Z -> Prop :=
| adt b1 b2 t : b1 <> [] -> blanks b1 -> b2 <> [] -> blanks b2 -> ncname E (ad_name a) ->
    default_text (ad_default a) t -> default_fits (ad_type a) (ad_default a) ->
    attdef_text a (ad_name a ++ b1 ++ keyword (ad_type a) ++ b2 ++ t).
(* the definitions of a list, at least one, and the end of the declaration *)
Inductive attdefs : list attdef -> list Z -> Prop :=
| ads_one a t b : attdef_text a t -> blanks b -> attdefs [a] (t ++ b ++ [62])
| ads_more a l t b s : attdef_text a t -> b <> [] -> blanks b -> attdefs l s -> attdefs (a :: l) (t ++ b ++ s).

Inductive decl :=
| DEntity (param : bool) (n v : list Z)
| DElement (p l : list Z) (s : spec)
| DAttlist (p l : list Z) (defs : list attdef).

Definition spec_code (s : spec) : Z :=
  match s with
  | Empty => EmptyElementType | Any => AnyElementType
  | Text _ | TextOr _ _ => MixedElementType | Children _ => ElementElementType
  end.
Definition attdef_event (p l : list Z) (a : attdef) : event :=
  EAttributeDecl (utf8 (qname p l)) (utf8 (ad_name a)) (type_code (ad_type a)) (default_code (ad_default a))
    (default_value (ad_type a) (ad_default a)) [].

(* [28b] intSubset without parameter entity references: its declarations and
   the events, in order *)
Inductive subset : list Z -> list decl -> list event -> Prop :=
| su_nil : subset [] [] []
| su_blank c s ds evs : blank c = true -> subset s ds evs -> subset (c :: s) ds evs
| su_comment b b' s ds evs : comment_text b -> eol b b' -> subset s ds evs ->
    subset (s_ "<!--" ++ b ++ s_ "-->" ++ s) ds (EComment (utf8 b') :: evs)
| su_pi0 t s ds evs : pitarget E t -> subset s ds evs ->
    subset (s_ "<?" ++ t ++ s_ "?>" ++ s) ds (EProcessingInstruction (utf8 t) [] :: evs)
| su_pi t b x s ds evs : pitarget E t -> b <> [] -> blanks b -> pidata x -> subset s ds evs ->
    subset (s_ "<?" ++ t ++ b ++ x ++ s_ "?>" ++ s) ds (EProcessingInstruction (utf8 t) (utf8 x) :: evs)
| su_general b1 n b2 q lit v b3 s ds evs :
    b1 <> [] -> blanks b1 -> ncname E n -> b2 <> [] -> blanks b2 -> q = 34 \/ q = 39 -> entlit q lit v -> blanks b3 ->
    subset s ds evs ->
    subset (s_ "<!ENTITY" ++ b1 ++ n ++ b2 ++ [q] ++ lit ++ [q] ++ b3 ++ [62] ++ s) (DEntity false n v :: ds)
      (EEntityDecl (utf8 n) InternalGeneralEntity [] [] (utf8 v) :: evs)
| su_param b1 b0 n b2 q lit v b3 s ds evs :
    b1 <> [] -> blanks b1 -> b0 <> [] -> blanks b0 -> ncname E n -> b2 <> [] -> blanks b2 -> q = 34 \/ q = 39 ->
    entlit q lit v -> blanks b3 -> subset s ds evs ->
    subset (s_ "<!ENTITY" ++ b1 ++ [37] ++ b0 ++ n ++ b2 ++ [q] ++ lit ++ [q] ++ b3 ++ [62] ++ s) (DEntity true n v :: ds)
      (EEntityDecl (utf8 n) InternalParameterEntity [] [] (utf8 v) :: evs)
| su_element p l sp t m s ds evs : pname p l -> spec_fits E sp -> decl_text p l sp t ->
    (forall w, stored_lang (spec_code sp) m w <-> spec_lang sp w) -> (m = None <-> sp = Empty \/ sp = Any) -> subset s ds evs ->
    subset (t ++ s) (DElement p l sp :: ds) (EElementDecl (utf8 (qname p l)) (spec_code sp) m :: evs)
| su_attlist b1 p l b2 defs t s ds evs : b1 <> [] -> blanks b1 -> pname p l -> b2 <> [] -> blanks b2 ->
    attdefs defs t -> subset s ds evs ->
    subset (s_ "<!ATTLIST" ++ b1 ++ qname p l ++ b2 ++ t ++ s) (DAttlist p l defs :: ds)
      (map (attdef_event p l) defs ++ evs).

(* ---- what the declarations mean for the content ---- *)
(* the internal general entities and their replacement texts *)
Definition entities (ds : list decl) : list (list Z * list Z) :=
  flat_map (fun d => match d with DEntity false n v => [(n, v)] | _ => [] end) ds.
(* the attributes declared, with their elements *)
Definition declared (ds : list decl) : list ((list Z * list Z) * attdef) :=
  flat_map (fun d => match d with DAttlist p l defs => map (pair (p, l)) defs | _ => [] end) ds.
(* every name is declared at most once (XML binds the first declaration, the
   tree builder the last one, see C35), the predefined ones not at all *)
Definition fine (ds : list decl) : Prop :=
  NoDup (map fst (entities ds)) /\
  (forall n, In n (map fst (entities ds)) -> ~ In n [s_ "lt"; s_ "gt"; s_ "amp"; s_ "apos"; s_ "quot"]) /\
  NoDup (map (fun x => (qname (fst (fst x)) (snd (fst x)), ad_name (snd x))) (declared ds)).

(* the attribute [a] of the element [e], qualified names, is tokenised *)
Definition tokenised (ds : list decl) (e a : str) : bool :=
  existsb (fun x => str_eqb (utf8 (qname (fst (fst x)) (snd (fst x)))) e && str_eqb (utf8 (ad_name (snd x))) a &&
                    negb (is_cdata (ad_type (snd x)))) (declared ds).
(* the defaults of the element [e] that are not empty *)
Definition defaults (ds : list decl) (e : str) : list (str * str) :=
  flat_map (fun x =>
    match default_value (ad_type (snd x)) (ad_default (snd x)) with
    | [] => []
    | v => if str_eqb (utf8 (qname (fst (fst x)) (snd (fst x)))) e then [(utf8 (ad_name (snd x)), v)] else []
    end) (declared ds).
(* the attributes reported for a start tag whose attributes read [a] *)
Definition qualified (p l : str) : str := match p with [] => l | _ => p ++ [58] ++ l end.
Definition value_of (ds : list decl) (e : str) (x : attr) : attr :=
  match x with
  | AAttr al ap v => AAttr al ap (if tokenised ds e (qualified ap al) then spaced (tokens v) else v)
  | _ => x
  end.
Definition reported (ds : list decl) (e : str) (a : list attr) : list attr :=
  map (value_of ds e) a ++ map (fun x => ADefault (fst x) [] (snd x)) (defaults ds e).
(* What the library gets wrong is excluded: types are looked up by local names
   (C59_prefix_refuted) and not applied inside entities (C59_entity_refuted),
   blank values of tokenised attributes panic (C36), and defaults are added to
   attributes that are there (C58_specified_refuted). *)
Definition typable (ds : list decl) (live : bool) (p l : list Z) (a : list attr) (d : list (str * str)) : Prop :=
  (forall al ap v, In (AAttr al ap v) a ->
     tokenised ds (utf8 l) al = tokenised ds (utf8 (qname p l)) (qualified ap al) /\
     (tokenised ds (utf8 l) al = true -> live = true /\ (v = [] \/ tokens v <> [])) /\
     ~ In (qualified ap al) (map fst (defaults ds (utf8 (qname p l))))) /\
  (forall dp u, In (dp, u) d -> tokenised ds (utf8 l) (match dp with [] => s_ "xmlns" | _ => dp end) = false).

(* content under the declarations [ds], with entities nested at most [k] deep;
   [live]: not in the text of an entity *)
Inductive dcontent (ds : list decl) : nat -> bool -> list (str * str) -> list Z -> list event -> list (str * str) -> Prop :=
| dc_nil k live ns : dcontent ds k live ns [] [] []
| dc_text k live ns t t' s evs d : text_run t -> eol t t' -> starts_markup s -> dcontent ds k live ns s evs d ->
    dcontent ds k live ns (t ++ s) (ECharacters (utf8 t') :: evs) d
| dc_ref k live ns t x s evs d : reference t = Some (x, s) -> x <> 65533 -> dcontent ds k live ns s evs d ->
    dcontent ds k live ns (38 :: t) (ECharacters (utf8 [x]) :: evs) d
| dc_comment k live ns b b' s evs d : comment_text b -> eol b b' -> dcontent ds k live ns s evs d ->
    dcontent ds k live ns (s_ "<!--" ++ b ++ s_ "-->" ++ s) (EComment (utf8 b') :: evs) d
| dc_pi0 k live ns t s evs d : pitarget E t -> dcontent ds k live ns s evs d ->
    dcontent ds k live ns (s_ "<?" ++ t ++ s_ "?>" ++ s) (EProcessingInstruction (utf8 t) [] :: evs) d
| dc_pi k live ns t b x s evs d : pitarget E t -> b <> [] -> blanks b -> pidata x -> dcontent ds k live ns s evs d ->
    dcontent ds k live ns (s_ "<?" ++ t ++ b ++ x ++ s_ "?>" ++ s) (EProcessingInstruction (utf8 t) (utf8 x) :: evs) d
| dc_cdata k live ns b b' s evs d : cdata_text b -> eol b b' -> dcontent ds k live ns s evs d ->
    dcontent ds k live ns (s_ "<![CDATA[" ++ b ++ s_ "]]>" ++ s) (ECDataBlock (utf8 b') :: evs) d
| dc_elem k live ns x s evs1 d1 evs d : delement ds k live ns x evs1 d1 -> dcontent ds k live ns s evs d ->
    dcontent ds k live ns (x ++ s) (evs1 ++ evs) (d1 ++ d)
(* 4.4.2: the entity is included; its text is content by itself (4.3.2), here
   with namespace prefixes of its own, and a closing report follows *)
| dc_entity k live ns n t evs1 d1 s evs d : In (n, t) (entities ds) ->
    dcontent ds k false [] t evs1 d1 -> NoDup (map fst d1) -> ~ In [] (map fst d1) ->
    dcontent ds (S k) live ns s evs d ->
    dcontent ds (S k) live ns (38 :: n ++ [59] ++ s) (evs1 ++ EReference (utf8 n) :: evs) d
with delement (ds : list decl) : nat -> bool -> list (str * str) -> list Z -> list event -> list (str * str) -> Prop :=
| de_empty k live ns p l t a d u : qnamed E p l -> atts E t a d -> typable ds live p l a d -> resolves (rev d ++ ns) (utf8 p) u ->
    delement ds k live ns (s_ "<" ++ qname p l ++ t ++ s_ "/>")
      [EStartElement (utf8 l) (utf8 p) u (map Some d) (reported ds (utf8 (qname p l)) a); EEndElement (utf8 l) (utf8 p) u] d
| de_full k live ns p l t a d u s evs d1 : qnamed E p l -> atts E t a d -> typable ds live p l a d ->
    resolves (rev d ++ ns) (utf8 p) u ->
    dcontent ds k live (rev d ++ ns) s evs d1 -> (forall x, s <> s_ "/>" ++ x) ->
    delement ds k live ns (s_ "<" ++ qname p l ++ t ++ s_ ">" ++ s ++ s_ "</" ++ qname p l ++ s_ ">")
      ([EStartElement (utf8 l) (utf8 p) u (map Some d) (reported ds (utf8 (qname p l)) a)] ++ evs ++ [EEndElement (utf8 l) (utf8 p) u]) (d ++ d1).

(* [28] the document type declaration, without external identifier *)
Inductive doctype : list Z -> list decl -> list event -> Prop :=
| dt_plain b1 p l b2 : b1 <> [] -> blanks b1 -> pname p l -> blanks b2 ->
    doctype (s_ "<!DOCTYPE" ++ b1 ++ qname p l ++ b2 ++ [62]) []
      [EInternalSubset (utf8 (qname p l)) [] []; EExternalSubset (utf8 (qname p l)) [] []]
| dt_subset b1 p l b2 s b3 ds evs : b1 <> [] -> blanks b1 -> pname p l -> blanks b2 -> subset s ds evs -> blanks b3 ->
    doctype (s_ "<!DOCTYPE" ++ b1 ++ qname p l ++ b2 ++ [91] ++ s ++ [93] ++ b3 ++ [62]) ds
      (EInternalSubset (utf8 (qname p l)) [] [] :: evs ++ [EExternalSubset (utf8 (qname p l)) [] []]).

(* how deep entities may be nested *)
Definition max_entity_depth : nat := 20.
(* a document with a document type declaration: its declarations, the events
   between its start and its end, and the namespaces it declares *)
Inductive ddocument : list Z -> docinfo -> list decl -> list event -> list (str * str) -> Prop :=
| dd_plain m1 x0 m2 x m3 ds e1 e2 e3 e4 e5 d : misc E m1 e1 -> doctype x0 ds e2 -> misc E m2 e3 ->
    delement ds max_entity_depth true [] x e4 d -> misc E m3 e5 -> fine ds ->
    (forall r, m1 <> s_ "<?xml" ++ r) ->
    ddocument (m1 ++ x0 ++ m2 ++ x ++ m3) {| di_version := []; di_encoding := None; di_standalone := None |} ds
      (e1 ++ e2 ++ e3 ++ e4 ++ e5) d
| dd_decl h v enc sa m1 x0 m2 x m3 ds e1 e2 e3 e4 e5 d : xml_decl h v enc sa -> (forall n, enc = Some n -> utf8_name n) ->
    misc E m1 e1 -> doctype x0 ds e2 -> misc E m2 e3 ->
    delement ds max_entity_depth true [] x e4 d -> misc E m3 e5 -> fine ds ->
    ddocument (h ++ m1 ++ x0 ++ m2 ++ x ++ m3) {| di_version := v; di_encoding := enc; di_standalone := sa |} ds
      (e1 ++ e2 ++ e3 ++ e4 ++ e5) d.
End Doctype.

(* Events that say the same: a blank run may be reported as ignorable white
   space, the defaults of an element in any order, and a content model may be
   stored in any form that admits the same children. *)
Inductive same : event -> event -> Prop :=
| sm_refl e : same e e
| sm_blank t : t <> [] -> blanks t -> same (ECharacters t) (EIgnorableWhitespace t)
| sm_start l p u ns a d d' : Forall (fun x => exists n q v, x = ADefault n q v) d -> Permutation d d' ->
    same (EStartElement l p u ns (a ++ d)) (EStartElement l p u ns (a ++ d'))
| sm_element n t m m' : (forall w, stored_lang t m w <-> stored_lang t m' w) -> (m = None <-> m' = None) ->
    same (EElementDecl n t m) (EElementDecl n t m').

(* A handler that accepts everything and remembers the entities: [known] is
   what it answers for a name; a general entity is known after it was declared
   first, and nothing else changes that. *)
Record remembers (S : Type) (H : handler S) (known : S -> str -> option str) : Prop := {
  r_accepts : forall h v e, snd (h_event H h v e) = HNil \/ snd (h_event H h v e) = HUnspec;
  r_declared : forall h v n p s c, known h n = None ->
    known (fst (h_event H h v (EEntityDecl n InternalGeneralEntity p s c))) n = Some c;
  r_other : forall h v e n, (forall p s c, e <> EEntityDecl n InternalGeneralEntity p s c) ->
    known (fst (h_event H h v e)) n = known h n;
  r_answers : forall h v n c, known h n = Some c ->
    exists i, snd (h_getEntity H h v n) =
      Answer (Some (Real {| e_id := i; e_name := n; e_type := InternalGeneralEntity; e_content := c |})) false;
  r_asked : forall h v n m, known (fst (h_getEntity H h v n)) m = known h m;
  r_parameter : forall h v n, snd (h_getPEntity H h v n) <> AnswerPanic;
  r_asked_parameter : forall h v n m, known (fst (h_getPEntity H h v n)) m = known h m;
  r_original : forall h e s m, known (h_setOrig H h e s) m = known h m;
  r_attribute : forall h l p v, snd (h_createAttr H h l p v) = Ret tt;
  r_attribute_known : forall h l p v m, known (fst (h_createAttr H h l p v)) m = known h m;
  r_enter : forall h m, known (h_chunkEnter H h) m = known h m;
  r_leave : forall h h' m, known (h_chunkLeave H h h') m = known h' m
}.
Arguments remembers {S}.

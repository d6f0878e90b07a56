(* What the parser accepts as a document type declaration.  Like Loose.v this
   file is independent of the parser; what is not well-formed is marked with
   "loose" in the comments. *)
From Verif Require Import Base Utf8 XmlSpec Scan Parser Loose LooseLex Content TermDtd Doctype Grammar.
Local Open Scope Z_scope.

Section S.
Variable E : env.
Variable honest : Prop.

(* [5] Name *)
Definition xname (n : list Z) : Prop :=
  match n with [] => False | c :: r => (name_start E c = true \/ c = 58) /\ Forall (fun x => name_part E x = true \/ x = 58) r end /\
  legals n /\ Z.of_nat (List.length n) <= 50000.
(* loose: one NUL after a name *)
Definition drop (z : list Z) : Prop := z = [] \/ z = [0].

(* [48] cp, [49] choice, [50] seq; groups are not repeated, and nested at most
   d deep *)
Inductive ctext : nat -> cp -> list Z -> Prop :=
| ct_name d n z o : xname n -> drop z -> ctext d (Name [] n o) (n ++ z ++ sign o)
| ct_group d sep l o t : sep = 44 \/ sep = 124 -> o = Once \/ o = Opt -> ctexts d sep l t ->
    ctext (Datatypes.S d) (Group sep l o) ([40] ++ t ++ [41] ++ sign o)
with ctexts : nat -> Z -> cps -> list Z -> Prop :=
| cts_one d sep c a t b : blanks a -> ctext d c t -> blanks b -> ctexts d sep (One c) (a ++ t ++ b)
| cts_more d sep c l a t b r : blanks a -> ctext d c t -> blanks b -> ctexts d sep l r ->
    ctexts d sep (More c l) (a ++ t ++ b ++ [sep] ++ r).

(* [46] contentspec, with the type reported *)
Inductive model_text : Z -> list Z -> Prop :=
| mt_empty : model_text EmptyElementType (s_ "EMPTY")
| mt_any : model_text AnyElementType (s_ "ANY")
(* loose: no content model at all *)
| mt_none : model_text UndefinedElementType []
| mt_text b st : blanks b -> model_text MixedElementType ([40] ++ b ++ s_ "#PCDATA" ++ [41] ++ if st : bool then [42] else [])
| mt_or a b n z c : blanks a -> blanks b -> xname n -> drop z -> blanks c ->
    model_text MixedElementType ([40] ++ a ++ s_ "#PCDATA|" ++ b ++ n ++ z ++ c ++ [41; 42])
(* loose: the closing parenthesis is missing *)
| mt_open a : blanks a -> model_text MixedElementType ([40] ++ a ++ s_ "#PCDATA")
| mt_open_or a b n z c : blanks a -> blanks b -> xname n -> drop z -> blanks c ->
    model_text MixedElementType ([40] ++ a ++ s_ "#PCDATA|" ++ b ++ n ++ z ++ c)
| mt_children sep l o t : ctext max_nesting (Group sep l o) t -> model_text ElementElementType t.

(* [54] AttType: the type, the names of the notations and the text *)
Definition keywords : list (string * Z) :=
  [("CDATA", AttrCDATA); ("ID", AttrID); ("IDREF", AttrIDRef); ("IDREFS", AttrIDRefs); ("ENTITY", AttrEntity); ("ENTITIES", AttrEntities);
   ("NMTOKEN", AttrNmtoken); ("NMTOKENS", AttrNmtokens)]%string.
(* names with | between them *)
Inductive listing (P : list Z -> list Z -> Prop) : list (list Z) -> list Z -> Prop :=
| li_one n t b : P n t -> blanks b -> listing P [n] (t ++ b)
| li_more n t b a ns r : P n t -> blanks b -> blanks a -> listing P ns r -> listing P (n :: ns) (t ++ b ++ [124] ++ a ++ r).
Definition a_name (n t : list Z) : Prop := xname n /\ exists z, drop z /\ t = n ++ z.
Definition no_name (n t : list Z) : Prop := n = [] /\ t = [].
Inductive type_text : Z -> list (list Z) -> list Z -> Prop :=
| ty_keyword k z : In (k, z) keywords -> type_text z [] (s_ k)
| ty_notation b a ns t : b <> [] -> blanks b -> blanks a -> listing a_name ns t ->
    type_text AttrNotation ns (s_ "NOTATION" ++ b ++ [40] ++ a ++ t ++ [41])
(* loose: of the enumerations those are accepted that have no tokens *)
| ty_enum a ns t : blanks a -> listing no_name ns t -> type_text AttrEnumeration ns ([40] ++ a ++ t ++ [41]).
(* [10] AttValue, between the quotes, and its value (3.3.3).  References to
   entities other than the predefined ones are kept, and a reference to '&' is
   kept as &#38;.  [honest]: the application answers a query for an entity with
   an entity of that name, and with no predefined one; otherwise what is put in
   for such a reference is left open. *)
Inductive dlit (q : Z) : list Z -> str -> Prop :=
| dl_nil : dlit q [] []
| dl_char c t v : legal c = true -> blank c = false -> c <> q -> c <> 60 -> c <> 38 -> dlit q t v -> dlit q (c :: t) (utf8 [c] ++ v)
(* loose: the end of a line may become two spaces *)
| dl_blank c t v : blank c = true -> dlit q t v -> dlit q (c :: t) (32 :: v)
| dl_cref t x t' v : lref all t x t' -> dlit q t' v -> dlit q (38 :: t) ((if x =? 38 then s_ "&#38;" else utf8 [x]) ++ v)
| dl_ref n z t w v : xname n -> drop z -> ~ In n [s_ "lt"; s_ "gt"; s_ "amp"; s_ "apos"; s_ "quot"] -> (honest -> w = [38] ++ utf8 n ++ [59]) ->
    dlit q t v -> dlit q ([38] ++ n ++ z ++ [59] ++ t) (w ++ v).
(* [60] DefaultDecl, with the value *)
Inductive default_text : Z -> str -> list Z -> Prop :=
| df_required : default_text DefRequired [] (s_ "#REQUIRED")
| df_implied : default_text DefImplied [] (s_ "#IMPLIED")
| df_value q lit v : q = 34 \/ q = 39 -> dlit q lit v -> default_text DefNone v ([q] ++ lit ++ [q])
| df_fixed b q lit v : b <> [] -> blanks b -> q = 34 \/ q = 39 -> dlit q lit v -> default_text DefFixed v (s_ "#FIXED" ++ b ++ [q] ++ lit ++ [q]).
(* 3.3.3: the words of a value that is not of type CDATA are separated by
   single spaces *)
Definition by_type (typ : Z) (v : str) : str := if typ =? AttrCDATA then v else spaced (tokens v).
(* [53] AttDef, repeated up to the '>'; the attributes of the element e *)
Inductive defs_text (e : list Z) : list event -> list Z -> Prop :=
| ad_last n z b1 typ ns t b2 d w b3 v : xname n -> drop z -> b1 <> [] -> blanks b1 -> type_text typ ns t -> b2 <> [] -> blanks b2 ->
    default_text d v w -> blanks b3 ->
    defs_text e [EAttributeDecl (utf8 e) (utf8 n) typ d (by_type typ v) (map utf8 ns)] (n ++ z ++ b1 ++ t ++ b2 ++ w ++ b3)
| ad_more n z b1 typ ns t b2 d w b3 v evs r : xname n -> drop z -> b1 <> [] -> blanks b1 -> type_text typ ns t -> b2 <> [] -> blanks b2 ->
    default_text d v w -> b3 <> [] -> blanks b3 -> defs_text e evs r ->
    defs_text e (EAttributeDecl (utf8 e) (utf8 n) typ d (by_type typ v) (map utf8 ns) :: evs) (n ++ z ++ b1 ++ t ++ b2 ++ w ++ b3 ++ r).
(* [73], [74] EntityDef and PEDef, with the callback they give.  [replaced] is in
   TermDtd.v: references to characters are replaced, all else is kept. *)
Inductive value_text (n : str) : bool -> list event -> list Z -> Prop :=
(* loose: '&' need not begin a reference *)
| en_value pe q lit v : q = 34 \/ q = 39 -> legals lit -> ~ In q lit -> ~ In 37 lit -> replaced lit v -> legals v ->
    value_text n pe [EEntityDecl n (if pe then InternalParameterEntity else InternalGeneralEntity) [] [] (utf8 v)] ([q] ++ lit ++ [q])
(* loose: a literal with '%' or with a reference to no character or to U+FFFD
   is read, but the entity is not declared *)
| en_dropped pe q lit : q = 34 \/ q = 39 -> legals lit -> ~ In q lit -> In 37 lit \/ (forall v, replaced lit v -> ~ legals v) -> value_text n pe [] ([q] ++ lit ++ [q])
(* loose: no definition *)
| en_none_pe : value_text n true [] []
| en_none : value_text n false [EEntityDecl n ExternalParameterEntity [] [] []] [].

(* [28b] intSubset: [69] PEReference, [28a] DeclSep, [29] markupdecl *)
Inductive ditems : list Z -> list event -> Prop :=
| it_nil : ditems [] []
| it_blank c s evs : blank c = true -> ditems s evs -> ditems (c :: s) evs
| it_pe n z s evs : xname n -> drop z -> ditems s evs -> ditems ([37] ++ n ++ z ++ [59] ++ s) evs
| it_comment b b' s evs : comment_text b -> eol b b' -> ditems s evs -> ditems (s_ "<!--" ++ b ++ s_ "-->" ++ s) (EComment (utf8 b') :: evs)
(* loose: a comment ends at an illegal character *)
| it_open b v c s evs : open_comment b v -> legal c = false -> ditems s evs -> ditems (s_ "<!--" ++ b ++ c :: s) (EComment v :: evs)
| it_pi0 t z s evs : pitarget E t -> drop z -> ditems s evs -> ditems (s_ "<?" ++ t ++ z ++ s_ "?>" ++ s) (EProcessingInstruction (utf8 t) [] :: evs)
| it_pi t z b x s evs : pitarget E t -> drop z -> b <> [] -> blanks b -> pidata x -> ditems s evs ->
    ditems (s_ "<?" ++ t ++ z ++ b ++ x ++ s_ "?>" ++ s) (EProcessingInstruction (utf8 t) (utf8 x) :: evs)
(* the content model reported admits the children that the text says, for the
   expressions that C43 is about *)
| it_element b n z b' typ t c m s evs : b <> [] -> blanks b -> xname n -> drop z -> b' <> [] -> blanks b' -> model_text typ t -> blanks c ->
    (forall sp, spec_fits E sp -> spec_text sp t -> forall w, stored_lang typ m w <-> spec_lang sp w) -> ditems s evs ->
    ditems (s_ "<!ELEMENT" ++ b ++ n ++ z ++ b' ++ t ++ c ++ [62] ++ s) (EElementDecl (utf8 n) typ m :: evs)
(* loose: b' may be empty, after a NUL *)
| it_attlist b n z b' ds t s evs : b <> [] -> blanks b -> xname n -> drop z -> blanks b' -> defs_text n ds t -> ditems s evs ->
    ditems (s_ "<!ATTLIST" ++ b ++ n ++ z ++ b' ++ t ++ [62] ++ s) (ds ++ evs)
| it_entity b n z b' ds t c s evs : b <> [] -> blanks b -> xname n -> ~ In 58 n -> drop z -> b' <> [] -> blanks b' -> value_text (utf8 n) false ds t ->
    blanks c -> ditems s evs ->
    ditems (s_ "<!ENTITY" ++ b ++ n ++ z ++ b' ++ t ++ c ++ [62] ++ s) (ds ++ evs)
| it_pentity b a n z b' ds t c s evs : b <> [] -> blanks b -> a <> [] -> blanks a -> xname n -> ~ In 58 n -> drop z -> b' <> [] -> blanks b' ->
    value_text (utf8 n) true ds t -> blanks c -> ditems s evs ->
    ditems (s_ "<!ENTITY" ++ b ++ [37] ++ a ++ n ++ z ++ b' ++ t ++ c ++ [62] ++ s) (ds ++ evs).

(* [28] doctypedecl; there are no external identifiers *)
Inductive subset_text : list event -> list Z -> Prop :=
| sb_none : subset_text [] [62]
| sb_some s evs b : ditems s evs -> blanks b -> subset_text evs ([91] ++ s ++ [93] ++ b ++ [62])
(* loose: the subset may come after a '>' *)
| sb_late s evs b : ditems s evs -> blanks b -> subset_text evs ([62; 91] ++ s ++ [93] ++ b ++ [62]).
(* loose: no white space before the name *)
Inductive doctype_text : list Z -> list event -> Prop :=
| dt b n z b' t evs : blanks b -> xname n -> drop z -> blanks b' -> subset_text evs t ->
    doctype_text (s_ "<!DOCTYPE" ++ b ++ n ++ z ++ b' ++ t) (EInternalSubset (utf8 n) [] [] :: evs ++ [EExternalSubset (utf8 n) [] []]).
End S.

(* what an application does that knows its entities: asked for a name, it has
   no entity or one of that name, and it does not answer with a predefined
   entity when it is asked for another one *)
Definition truthful {S} (H : handler S) : Prop :=
  (forall h v n e err, snd (h_getEntity H h v n) = Answer (Some (Real e)) err -> e_name e = n /\ e_type e <> InternalPredefinedEntity) /\
  (forall h n e, h_docEntity H h n = Some (Some e) -> e_name e = n /\ e_type e <> InternalPredefinedEntity).

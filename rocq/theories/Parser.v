(* The parser of /repo/parserctx.go from parseDocument down, over an arbitrary
   SAX handler.  The state keeps, besides the fields of parserCtx that matter,
   the state of the handler and the trace of the events delivered to it. *)
From Verif Require Import Base Utf8 Encoding Scan.

(* ---- events: the calls made on /repo/sax/interface.go SAX2Handler ---- *)

(* sax.Attribute as handed to StartElementNS: *attrData (parserctx.go:808-812)
   or a defaulted *Attribute (3796-3803), of which the value given to
   CreateAttribute is kept *)
Inductive attr :=
| AAttr (local prefix value : str)
| ADefault (local prefix raw : str).

(* one constructor per method of SAX2Handler the parser calls,
   /repo/sax/interface.go *)
Inductive event :=
| ESetDocumentLocator
| EStartDocument
| EEndDocument
| EProcessingInstruction (target data : str)
| EStartElement (local prefix uri : str) (nslist : list (option (str * str))) (attrs : list attr)
| EEndElement (local prefix uri : str)
| ECharacters (s : str)
| ECDataBlock (s : str)
| EIgnorableWhitespace (s : str)
| EComment (s : str)
| EInternalSubset (name ext sys : str)
| EExternalSubset (name ext sys : str)
| EReference (name : str)
| EEntityDecl (name : str) (typ : Z) (ext sys content : str)
| EElementDecl (name : str) (typ : Z) (content : option econt)
| EAttributeDecl (elem attr : str) (typ def : Z) (value : str) (enum : list str).

(* What a handler call comes back with: nil, sax.ErrHandlerUnspecified, some
   other error (by number), or a panic inside the handler *)
Inductive hres := HNil | HUnspec | HError (k : Z) | HPanic.

(* an *Entity as the parser reads it (parserctx.go:4071-4127, 981-1006);
   e_id names the object *)
Record ent := { e_id : Z; e_name : str; e_type : Z; e_content : str }.
(* a non-nil sax.Entity: an *Entity of this package or another type *)
Inductive entref := Real (e : ent) | Foreign (id : Z).
(* (sax.Entity, error) *)
Inductive answer := Answer (e : option entref) (isErr : bool) | AnswerPanic.

(* the fields of parserCtx the tree builder reads through its ctx argument *)
Record view := { v_version : str; v_encoding : str; v_standalone : Z; v_inSubset : Z }.

(* A SAX handler with state S.  h_mixed, h_docEntity, h_createAttr and the
   two h_chunk functions are not callbacks: they stand for what the parser
   reads or does on ctx.doc, which the handler (the tree builder) owns.
   h_mixed: IsMixedElement, None when ctx.doc is nil (areBlanks);
   h_docEntity: ctx.doc.GetEntity, outer None when ctx.doc is nil;
   h_createAttr: ctx.doc.CreateAttribute (addAttributeDefault). *)
Record handler (S : Type) := {
  h_event : S -> view -> event -> S * hres;
  h_getEntity : S -> view -> str -> S * answer;
  h_getPEntity : S -> view -> str -> S * answer;
  h_setOrig : S -> entref -> str -> S;
  h_mixed : S -> str -> option bool;
  h_docEntity : S -> str -> option (option ent);
  h_createAttr : S -> str -> str -> str -> S * outcome unit unit;
  h_chunkEnter : S -> S;
  h_chunkLeave : S -> S -> S
}.
Arguments h_event {S}. Arguments h_getEntity {S}. Arguments h_getPEntity {S}.
Arguments h_setOrig {S}. Arguments h_mixed {S}. Arguments h_docEntity {S}.
Arguments h_createAttr {S}. Arguments h_chunkEnter {S}. Arguments h_chunkLeave {S}.

Definition node := (str * str * str)%type.   (* *Element on nodeTab: local, prefix, uri *)

(* parserCtx, /repo/parser_interface.go:108-150.  Constant fields (replaceEntities,
   pedantic, options, external, hasExternalSubset, space) are left out, as are
   instate, wellFormed and valid, which no result depends on. *)
Record pst (S : Type) := {
  inp : list Z;                               (* runes left of the current input *)
  nsTab : list (str * str);                   (* (prefix, href), newest last *)
  nodeTab : list node;                        (* newest first *)
  attsSpecial : list (str * Z);               (* newest first *)
  attsDefault : list (str * str * (str * str * str)); (* (element, attribute, (local, prefix, raw value)) *)
  hasPERefs : bool;
  depth : Z;
  inSubset : Z;
  version : str;
  encoding : str;
  standalone : Z;
  intSubName : str;
  hs : S;
  tr : list (event * hres)                    (* callbacks made and what they returned, newest first *)
}.
Arguments inp {S}. Arguments nsTab {S}. Arguments nodeTab {S}. Arguments attsSpecial {S}.
Arguments attsDefault {S}. Arguments hasPERefs {S}. Arguments depth {S}. Arguments inSubset {S}.
Arguments version {S}. Arguments encoding {S}. Arguments standalone {S}. Arguments intSubName {S}.
Arguments hs {S}. Arguments tr {S}.

(* /repo/interface.go:6-8 and parserctx.go:771 *)
Definition XMLNamespace : str := s_ "http://www.w3.org/XML/1998/namespace".
Definition XMLNSNamespace : str := s_ "http://www.w3.org/2000/xmlns/".
Definition s_xmlns : str := s_ "xmlns".
Definition s_xml : str := s_ "xml".

(* EntityType, /repo/interface.go:311-318 *)
Definition InternalGeneralEntity : Z := 1.
Definition ExternalGeneralParsedEntity : Z := 2.
Definition ExternalGeneralUnparsedEntity : Z := 3.
Definition InternalParameterEntity : Z := 4.
Definition ExternalParameterEntity : Z := 5.
Definition InternalPredefinedEntity : Z := 6.

(* /repo/entity.go:5-20 resolvePredefinedEntity *)
Definition predefined (name : str) : option str :=
  if str_eqb name (s_ "lt") then Some [60]
  else if str_eqb name (s_ "gt") then Some [62]
  else if str_eqb name (s_ "amp") then Some [38]
  else if str_eqb name (s_ "apos") then Some [39]
  else if str_eqb name (s_ "quot") then Some [34]
  else None.

(* nsStack.Lookup, /repo/stack.go:44-50: newest first, "" when absent *)
Definition lookupNS (tab : list (str * str)) (prefix : str) : str :=
  match find (fun p => str_eqb (fst p) prefix) (rev tab) with
  | Some (_, h) => h
  | None => []
  end.
(* nsStack.Push through UniqueStack, /repo/stack.go:40-42: a pair that is
   already present is not pushed again (the key is the prefix), and the error
   is dropped *)
Definition pushNS (tab : list (str * str)) (prefix href : str) : list (str * str) :=
  if existsb (fun p => str_eqb (fst p) prefix) tab then tab else tab ++ [(prefix, href)].
(* SimpleStack.Peek(n), /repo/internal/stack/simple.go:29-34: the last n items *)
Definition lastn {A} (n : nat) (l : list A) : list A := skipn (List.length l - n) l.

(* Element.Name(), /repo/node.go:230-235 *)
Definition nodeName (e : node) : str :=
  let '(local, prefix, _) := e in
  match prefix with [] => local | _ => prefix ++ [58] ++ local end.

(* /repo/parserctx.go:3651-3659 lookupSpecialAttribute over the map
   attsSpecial *)
Definition lookupSpecial (l : list (str * Z)) (key : str) : option Z :=
  match find (fun p => str_eqb (fst p) key) l with Some (_, v) => Some v | None => None end.
(* the key of attsSpecial: /repo/parserctx.go:3643, 3652 *)
Definition special_key (elem att : str) : str := elem ++ [58] ++ att.
(* /repo/parserctx.go:3642-3649 addSpecialAttribute: an entry of the map is
   overwritten *)
Definition putSpecial (key : str) (typ : Z) (l : list (str * Z)) : list (str * Z) :=
  (key, typ) :: filter (fun p => negb (str_eqb (fst p) key)) l.

Section Parser.
Variable E : env.
Variable S : Type.
Variable H : handler S.

Notation pst := (pst S).
Definition M (A : Type) := pst -> outcome gerr A * pst.

(* no code of /repo: the plumbing of the parser (sequencing, failing,
   panicking, running out of fuel) *)
Definition ret {A} (a : A) : M A := fun s => (Ret a, s).
Definition fail {A} (e : gerr) : M A := fun s => (Fail e, s).
Definition pan {A} : M A := fun s => (Pan, s).
Definition oof {A} : M A := fun s => (Oof, s).
Definition bind {A B} (m : M A) (f : A -> M B) : M B := fun s =>
  match m s with
  | (Ret a, s') => f a s'
  | (Fail e, s') => (Fail e, s')
  | (Pan, s') => (Pan, s')
  | (Oof, s') => (Oof, s')
  end.
Definition wrap {A} (m : M A) : M A := fun s =>
  match m s with
  | (Fail e, s') => (Fail (ctx_error e), s')
  | r => r
  end.
Definition failw {A} (k : string) : M A := fail (PErr (Plain k)).
Definition get {A} (f : pst -> A) : M A := fun s => (Ret (f s), s).
Definition modify (f : pst -> pst) : M unit := fun s => (Ret tt, f s).
Definition mlift {A} (o : outcome gerr A) : M A := fun s => (o, s).

(* assignments to fields of parserCtx, one function each *)
Definition set_inp (l : list Z) (s : pst) : pst := {|
  inp := l; nsTab := nsTab s; nodeTab := nodeTab s; attsSpecial := attsSpecial s; attsDefault := attsDefault s;
  hasPERefs := hasPERefs s; depth := depth s; inSubset := inSubset s; version := version s; encoding := encoding s;
  standalone := standalone s; intSubName := intSubName s; hs := hs s; tr := tr s |}.
Definition set_nsTab (x : list (str * str)) (s : pst) : pst := {|
  inp := inp s; nsTab := x; nodeTab := nodeTab s; attsSpecial := attsSpecial s; attsDefault := attsDefault s;
  hasPERefs := hasPERefs s; depth := depth s; inSubset := inSubset s; version := version s; encoding := encoding s;
  standalone := standalone s; intSubName := intSubName s; hs := hs s; tr := tr s |}.
Definition set_nodeTab (x : list node) (s : pst) : pst := {|
  inp := inp s; nsTab := nsTab s; nodeTab := x; attsSpecial := attsSpecial s; attsDefault := attsDefault s;
  hasPERefs := hasPERefs s; depth := depth s; inSubset := inSubset s; version := version s; encoding := encoding s;
  standalone := standalone s; intSubName := intSubName s; hs := hs s; tr := tr s |}.
Definition set_special (x : list (str * Z)) (s : pst) : pst := {|
  inp := inp s; nsTab := nsTab s; nodeTab := nodeTab s; attsSpecial := x; attsDefault := attsDefault s;
  hasPERefs := hasPERefs s; depth := depth s; inSubset := inSubset s; version := version s; encoding := encoding s;
  standalone := standalone s; intSubName := intSubName s; hs := hs s; tr := tr s |}.
Definition set_default (x : list (str * str * (str * str * str))) (s : pst) : pst := {|
  inp := inp s; nsTab := nsTab s; nodeTab := nodeTab s; attsSpecial := attsSpecial s; attsDefault := x;
  hasPERefs := hasPERefs s; depth := depth s; inSubset := inSubset s; version := version s; encoding := encoding s;
  standalone := standalone s; intSubName := intSubName s; hs := hs s; tr := tr s |}.
Definition set_hasPERefs (x : bool) (s : pst) : pst := {|
  inp := inp s; nsTab := nsTab s; nodeTab := nodeTab s; attsSpecial := attsSpecial s; attsDefault := attsDefault s;
  hasPERefs := x; depth := depth s; inSubset := inSubset s; version := version s; encoding := encoding s;
  standalone := standalone s; intSubName := intSubName s; hs := hs s; tr := tr s |}.
Definition set_inSubset (x : Z) (s : pst) : pst := {|
  inp := inp s; nsTab := nsTab s; nodeTab := nodeTab s; attsSpecial := attsSpecial s; attsDefault := attsDefault s;
  hasPERefs := hasPERefs s; depth := depth s; inSubset := x; version := version s; encoding := encoding s;
  standalone := standalone s; intSubName := intSubName s; hs := hs s; tr := tr s |}.
Definition set_decl (v e : str) (sa : Z) (s : pst) : pst := {|
  inp := inp s; nsTab := nsTab s; nodeTab := nodeTab s; attsSpecial := attsSpecial s; attsDefault := attsDefault s;
  hasPERefs := hasPERefs s; depth := depth s; inSubset := inSubset s; version := v; encoding := e;
  standalone := sa; intSubName := intSubName s; hs := hs s; tr := tr s |}.
Definition set_intSubName (x : str) (s : pst) : pst := {|
  inp := inp s; nsTab := nsTab s; nodeTab := nodeTab s; attsSpecial := attsSpecial s; attsDefault := attsDefault s;
  hasPERefs := hasPERefs s; depth := depth s; inSubset := inSubset s; version := version s; encoding := encoding s;
  standalone := standalone s; intSubName := x; hs := hs s; tr := tr s |}.
Definition set_hs (x : S) (s : pst) : pst := {|
  inp := inp s; nsTab := nsTab s; nodeTab := nodeTab s; attsSpecial := attsSpecial s; attsDefault := attsDefault s;
  hasPERefs := hasPERefs s; depth := depth s; inSubset := inSubset s; version := version s; encoding := encoding s;
  standalone := standalone s; intSubName := intSubName s; hs := x; tr := tr s |}.
Definition add_event (x : S) (e : event * hres) (s : pst) : pst := {|
  inp := inp s; nsTab := nsTab s; nodeTab := nodeTab s; attsSpecial := attsSpecial s; attsDefault := attsDefault s;
  hasPERefs := hasPERefs s; depth := depth s; inSubset := inSubset s; version := version s; encoding := encoding s;
  standalone := standalone s; intSubName := intSubName s; hs := x; tr := e :: tr s |}.

(* run a scanner on the current input *)
Definition lift {A} (p : P A) : M A := fun s =>
  match p (inp s) with (o, l) => (o, set_inp l s) end.

(* run m, then the scanner c on what is left even if m failed, and come back
   with the result of m *)
Definition always {A} (m : M A) (c : P unit) : M A := fun s =>
  match m s with
  | (Ret a, s') => (Ret a, set_inp (snd (c (inp s'))) s')
  | (Fail e, s') => (Fail e, set_inp (snd (c (inp s'))) s')
  | r => r
  end.

(* what a callback can read through its ctx argument *)
Definition the_view (s : pst) : view :=
  {| v_version := version s; v_encoding := encoding s; v_standalone := standalone s; v_inSubset := inSubset s |}.

(* switch err := s.X(ctx.userData, ...); err { case nil, sax.ErrHandlerUnspecified: default: return err } *)
Definition emit_raw (e : event) : M unit := fun s =>
  let '(h', r) := h_event H (hs s) (the_view s) e in
  let s' := add_event h' (e, r) s in
  match r with
  | HNil | HUnspec => (Ret tt, s')
  | HError k => (Fail (HErr k), s')
  | HPanic => (Pan, s')
  end.
(* the same with return ctx.error(err) *)
Definition emit (e : event) : M unit := wrap (emit_raw e).

Declare Scope parser_scope.
Delimit Scope parser_scope with parser.
Local Notation "x <- p ;; q" := (bind p (fun x => q)) (at level 61, p at next level, right associativity) : parser_scope.
Local Notation "p ;; q" := (bind p (fun _ => q)) (at level 61, right associativity) : parser_scope.
Local Open Scope parser_scope.

(* the cursor operations of Scan.v on the current input *)
Definition mpeek : M Z := lift (ppeek E).
Definition mpeekn (n : nat) : M Z := lift (ppeekn E n).
Definition madvance (n : nat) : M unit := lift (padvance E n).
Definition mhas (p : str) : M bool := lift (phas p).
Definition mconsume (p : str) : M bool := lift (pconsume p).
Definition mdone : M bool := get (fun s => done (inp s)).
Definition mskip : M bool := lift skipBlanks.

(* /repo/parserctx.go:1507-1579 *)
Definition parsePI : M unit :=
  td <- lift (scanPI E) ;; emit (EProcessingInstruction (fst td) (snd td)).
(* /repo/parserctx.go:1952-2011 *)
Definition parseComment : M unit :=
  c <- lift (scanComment E) ;; emit (EComment c).

(* /repo/parserctx.go:1847-1906; ctx.space is always 0 *)
Definition areBlanks (t : str) : M bool := fun s =>
  (Ret (if negb (forallb isBlankCh t) then false
        else match nodeTab s with
             | [] => false
             | e :: _ =>
                 match h_mixed H (hs s) (nodeName e) with
                 | Some mixed => negb mixed
                 | None => (peek E (inp s) =? 60) || (peek E (inp s) =? 13)
                 end
             end), s).

(* /repo/parserctx.go:589-663; instate is psCDATA exactly when cdata is true *)
Definition parseCharData (cdata : bool) : M unit :=
  t <- lift (scanCharData E cdata) ;;
  if cdata then emit (ECDataBlock t)
  else b <- areBlanks t ;;
       if (b : bool) then emit (EIgnorableWhitespace t) else emit (ECharacters t).

(* /repo/parserctx.go:1925-1950 *)
Definition parseCDSect : M unit :=
  ok <- mconsume (s_ "<![CDATA[") ;;
  if negb ok then failw "ErrInvalidCDSect"
  else wrap (parseCharData true) ;;
       ok2 <- mconsume (s_ "]]>") ;;
       if negb ok2 then failw "ErrCDATANotFinished" else ret tt.

(* handler queries *)
Definition queryEntity (name : str) : M (option entref * bool) := fun s =>
  let '(h', a) := h_getEntity H (hs s) (the_view s) name in
  match a with
  | Answer e err => (Ret (e, err), set_hs h' s)
  | AnswerPanic => (Pan, set_hs h' s)
  end.
Definition queryPEntity (name : str) : M (option entref * bool) := fun s =>
  let '(h', a) := h_getPEntity H (hs s) (the_view s) name in
  match a with
  | Answer e err => (Ret (e, err), set_hs h' s)
  | AnswerPanic => (Pan, set_hs h' s)
  end.

(* /repo/parserctx.go:4504-4563 getEntity, called only with names that are
   not predefined: outside the DTD it returns nil at once (the test of err at
   4506 is inverted); inside it dereferences ctx.doc *)
Definition getEntity (name : str) : M (option ent) := fun s =>
  if inSubset s =? 0 then (Ret None, s)
  else match h_docEntity H (hs s) name with
       | None => (Pan, s)
       | Some r => (Ret r, s)
       end.

(* /repo/parserctx.go:4827-4949 *)
Definition parseEntityRef : M ent :=
  c <- mpeek ;;
  if negb (c =? 38) then failw "ErrAmpersandRequired"
  else
    madvance 1 ;;
    name <- lift (por_else (parseName E) (PErr (Plain "ErrNameRequired"))) ;;
    c2 <- mpeek ;;
    if negb (c2 =? 59) then failw "ErrSemicolonRequired"
    else
      madvance 1 ;;
      match predefined name with
      | Some content => ret {| e_id := 0; e_name := name; e_type := InternalPredefinedEntity; e_content := content |}
      | None =>
          a <- queryEntity name ;;
          if negb (snd a) then
            match fst a with
            | Some (Real e) => ret e
            | _ => pan                       (* loadedEnt.( *Entity) *)
            end
          else
            me <- (match fst a with None => getEntity name | Some _ => ret None end) ;;
            match me with
            | None =>
                sa <- get standalone ;;
                pe <- get hasPERefs ;;
                if (sa =? StandaloneExplicitYes) || pe then failw "ErrUndeclaredEntity"
                else
                  sub <- get inSubset ;;
                  (if sub =? 0 then emit (EReference name) else ret tt) ;;
                  pan
            | Some e =>
                if e_type e =? ExternalGeneralUnparsedEntity then failw "entity reference to unparsed entity"
                else if e_type e =? ExternalParameterEntity then failw "attempt to reference the parameter entity"
                else ret e
            end
      end.

(* the trimming at the end of parseAttributeValueInternal (1024-1033) *)
Fixpoint rtrim_rev (r : str) : str :=
  match r with [] => [] | c :: t => if c =? 32 then rtrim_rev t else r end.
Definition rtrim (v : str) : outcome gerr str :=
  match rev v with
  | [] => Pan
  | _ => Ret (rev (rtrim_rev (rev v)))
  end.

(* /repo/parserctx.go:933-1036 parseAttributeValueInternal: the loop.  qch is
   always a quote. *)
Fixpoint attrValueLoop (n : nat) (qch : Z) (normalize : bool) (b : str) (inSpace : bool) (entities : Z)
  : M (str * Z) :=
  match n with
  | O => oof
  | Datatypes.S n' =>
      c <- mpeek ;;
      if (c =? qch) || negb (isChar c) || (c =? 60) then
        (if inSpace && normalize
         then v <- mlift (rtrim b) ;; ret (v, entities)
         else ret (b, entities))
      else if c =? 38 then
        c2 <- mpeekn 2 ;;
        if c2 =? 35 then
          r <- wrap (lift (parseCharRef E)) ;;
          attrValueLoop n' qch normalize (b ++ (if r =? 38 then s_ "&#38;" else encode_rune r)) false (entities + 1)
        else
          e <- wrap parseEntityRef ;;
          attrValueLoop n' qch normalize
            (b ++ (if e_type e =? InternalPredefinedEntity
                   then (if str_eqb (e_content e) [38] then s_ "&#38;" else e_content e)
                   else [38] ++ e_name e ++ [59])) false (entities + 1)
      else if (c =? 32) || (c =? 13) || (c =? 10) || (c =? 9) then
        let keep := negb (match b with [] => true | _ => false end) || negb normalize in
        let b' := if keep && (negb normalize || negb inSpace) then b ++ [32] else b in
        madvance 1 ;;
        attrValueLoop n' qch normalize b' (if keep then true else inSpace) entities
      else
        madvance 1 ;;
        attrValueLoop n' qch normalize (b ++ encode_rune c) false entities
  end.
Definition parseAttributeValueInternal (n : nat) (qch : Z) (normalize : bool) : M (str * Z) :=
  attrValueLoop n qch normalize [] false 0.

(* /repo/parserctx.go:919-930 parseAttributeValue over parseQuotedText
   (1355-1387): a missing opening or closing quote is not reported *)
Definition parseAttributeValue (n : nat) (normalize : bool) : M (str * Z) :=
  q <- mpeek ;;
  if (q =? 34) || (q =? 39) then
    madvance 1 ;;
    always (parseAttributeValueInternal n q normalize)
           (fun l => (Ret tt, if peek E l =? q then advance E 1 l else l))
  else ret ([], 0).

(* /repo/parserctx.go:1038-1104 parseAttribute: (local, prefix, value) *)
Definition parseAttribute (n : nat) (elemName : str) : M (str * str * str) :=
  lp <- lift (pwrap (parseQName E)) ;;
  let '(l, p) := lp in
  sp <- get attsSpecial ;;
  let normalize := match lookupSpecial sp (special_key elemName l) with
                   | Some t => negb (t =? AttrInvalid)
                   | None => false
                   end in
  mskip ;;
  madvance 1 ;;                                 (* whether or not it is a '=' *)
  mskip ;;
  ve <- wrap (parseAttributeValue n normalize) ;;
  v <- (if normalize && (0 <? snd ve) then mlift (attrNormalizeSpace (fst ve)) else ret (fst ve)) ;;
  ret (l, p, v).

(* if cur.Peek() == '>' || HasPrefix "/>" { continue }; blank required; skipBlanks
   (748-755, 794-801): true for continue *)
Definition afterNSDecl : M bool :=
  c <- mpeek ;;
  sl <- mhas (s_ "/>") ;;
  if (c =? 62) || sl then ret true
  else if negb (isBlankCh c) then failw "ErrSpaceRequired"
  else mskip ;; ret false.

(* /repo/parserctx.go:728-815, the attribute loop of parseStartTag *)
Fixpoint attrLoop (n : nat) (local : str) (attrs : list attr) (nbNs : nat) : M (list attr * nat) :=
  match n with
  | O => oof
  | Datatypes.S n' =>
      mskip ;;
      c <- mpeek ;;
      if c =? 62 then madvance 1 ;; ret (attrs, nbNs)
      else
        c2 <- mpeekn 2 ;;
        if (c =? 47) && (c2 =? 62) then ret (attrs, nbNs)
        else
          a <- wrap (parseAttribute n' local) ;;
          let '(attname, aprefix, attvalue) := a in
          let addAttr := attrs ++ [AAttr attname aprefix attvalue] in
          if str_eqb attname s_xmlns && str_eqb aprefix [] then
            modify (fun s => set_nsTab (pushNS (nsTab s) [] attvalue) s) ;;
            cont <- afterNSDecl ;;
            if (cont : bool) then attrLoop n' local attrs (Datatypes.S nbNs)
            else attrLoop n' local addAttr (Datatypes.S nbNs)
          else if str_eqb aprefix s_xmlns then
            if str_eqb attname s_xml then
              if negb (str_eqb attvalue XMLNamespace) then failw "xml namespace prefix mapped to wrong URI"
              else afterNSDecl ;; attrLoop n' local attrs nbNs
            else if str_eqb attname s_xmlns then failw "redefinition of the xmlns prefix forbidden"
            else if str_eqb attvalue XMLNSNamespace then failw "reuse of the xmlns namespace name if forbidden"
            else if str_eqb attvalue [] then failw "Empty XML namespace is not allowed"
            else if negb (urlOk E attvalue) then failw "not a validURI"
            else
              tab <- get nsTab ;;
              if negb (str_eqb (lookupNS tab attname) []) then failw "duplicate attribute is not allowed"
              else
                modify (fun s => set_nsTab (pushNS (nsTab s) attname attvalue) s) ;;
                afterNSDecl ;;
                attrLoop n' local attrs (Datatypes.S nbNs)
          else attrLoop n' local addAttr nbNs
  end.

(* the defaults of an element, /repo/parserctx.go:819-836, in map order *)
Definition defaultsOf (name : str) (d : list (str * str * (str * str * str))) : list (str * str * str) :=
  map snd (filter (fun p => str_eqb (fst (fst p)) name) d).

(* /repo/parserctx.go:698-868 *)
Definition parseStartTag (n : nat) : M unit :=
  c <- mpeek ;;
  if negb (c =? 60) then failw "ErrStartTagRequired"
  else
    madvance 1 ;;
    lp <- lift (por_else (parseQName E) (PErr (Plain "local name empty!"))) ;;
    let '(local, prefix) := lp in
    match local with
    | [] => failw "local name empty!"
    | _ =>
      r <- attrLoop n local [] 0 ;;
      let '(attrs0, nbNs) := r in
      (* the loop over the defaults; the number of events so far tells it from others *)
      defs <- get (fun s => permute E (List.length (tr s))
        (defaultsOf (match prefix with [] => local | _ => prefix ++ [58] ++ local end) (attsDefault s))) ;;
      let attrs := attrs0 ++ map (fun x : str * str * str => let '(l, p, v) := x in ADefault l p v) defs in
      tab <- get nsTab ;;
      let nsuri := lookupNS tab prefix in
      if negb (str_eqb prefix []) && str_eqb nsuri [] then failw "namespace not found"
      else
        let items := lastn nbNs tab in
        let nslist := map Some items ++ repeat None (nbNs - List.length items) in
        emit (EStartElement local prefix nsuri nslist attrs) ;;
        modify (fun s => set_nodeTab ((local, (if str_eqb nsuri [] then [] else prefix), nsuri) :: nodeTab s) s)
    end.

(* /repo/parserctx.go:879-917 *)
Definition parseEndTag : M unit :=
  empty <- mconsume (s_ "/>") ;;
  nodes <- get nodeTab ;;
  (if empty : bool then ret tt
   else
     ok <- mconsume (s_ "</") ;;
     if negb ok then failw "ErrLtSlashRequired"
     else match nodes with
          | [] => pan
          | e :: _ =>
              ok2 <- mconsume (runes_of (nodeName e)) ;;
              if negb ok2 then failw "expected end tag"
              else c <- mpeek ;;
                   if negb (c =? 62) then failw "ErrGtRequired" else madvance 1
          end) ;;
  match nodes with
  | [] => pan
  | (local, prefix, uri) :: _ =>
      emit (EEndElement local prefix uri) ;;
      modify (fun s => set_nodeTab (tl (nodeTab s)) s)
  end.

(* /repo/parserctx.go:665-696 *)
Definition parseElement (n : nat) (content : M unit) : M unit :=
  wrap (parseStartTag n) ;;
  empty <- mhas (s_ "/>") ;;
  (if empty : bool then ret tt else wrap content) ;;
  wrap parseEndTag.

(* /repo/parserctx.go:3960-4026 parseBalancedChunkInternal.  The new context
   shares the handler, the document and the default attributes; on return the
   pseudoroot has no child, so that the result is ErrParseSucceeded, which the
   caller takes for success.  The decoder of the new context is UTF-8. *)
Definition parseBalancedChunk (content : M unit) (chunk : str) : M unit := fun s =>
  let d := depth s + 1 in
  if 40 <? d then (Fail (Plain "entity loop"), s)
  else
    let s0 := {|
      inp := runes_of chunk; nsTab := []; nodeTab := [(s_ "pseudoroot", [], [])];
      attsSpecial := []; attsDefault := attsDefault s; hasPERefs := false; depth := d + 1; inSubset := 0;
      version := []; encoding := []; standalone := StandaloneImplicitNo; intSubName := [];
      hs := h_chunkEnter H (hs s); tr := tr s |} in
    let '(o, s1) := content s0 in
    (o, {|
      inp := inp s; nsTab := nsTab s; nodeTab := nodeTab s; attsSpecial := attsSpecial s;
      attsDefault := attsDefault s; hasPERefs := hasPERefs s; depth := depth s; inSubset := inSubset s;
      version := version s; encoding := encoding s; standalone := standalone s; intSubName := intSubName s;
      hs := h_chunkLeave H (hs s) (hs s1); tr := tr s1 |}).

(* /repo/parserctx.go:4036-4384 parseReference; ent.checked is always 0, no
   option is set and replaceEntities is false *)
Definition parseReference (content : M unit) : M unit :=
  c <- mpeek ;;
  if negb (c =? 38) then failw "ErrAmpersandRequired"
  else
    c2 <- mpeekn 2 ;;
    if c2 =? 35 then
      v <- wrap (lift (parseCharRef E)) ;;
      emit (ECharacters (encode_rune v))
    else
      e <- wrap parseEntityRef ;;
      if str_eqb (e_name e) [] || (e_type e =? InternalPredefinedEntity) then
        (if str_eqb (e_content e) [] then ret tt else emit (ECharacters (e_content e)))
      else if e_type e =? ExternalGeneralParsedEntity then fail (Plain "ErrUnimplemented")
      else if e_type e =? InternalGeneralEntity then
        parseBalancedChunk content (e_content e) ;;
        emit_raw (EReference (e_name e))
      else fail (Plain "invalid entity type").

(* /repo/parserctx.go:519-577 parseContent; [n] is fuel for the whole subtree *)
Fixpoint parseContent (n : nat) : M unit :=
  match n with
  | O => oof
  | Datatypes.S n' =>
      d <- mdone ;;
      if (d : bool) then ret tt
      else
        fun s =>
        let l := inp s in
        (if has_prefix (s_ "</") l then ret tt
         else if has_prefix (s_ "<?") l then wrap parsePI ;; parseContent n'
         else if has_prefix (s_ "<![CDATA[") l then wrap parseCDSect ;; parseContent n'
         else if has_prefix (s_ "<!--") l then wrap parseComment ;; parseContent n'
         else if has_prefix (s_ "<") l then wrap (parseElement n' (parseContent n')) ;; parseContent n'
         else if has_prefix (s_ "&") l then wrap (parseReference (parseContent n')) ;; parseContent n'
         else parseCharData false ;; parseContent n') s
  end.

(* /repo/parserctx.go:1473-1500 *)
Fixpoint parseMisc (n : nat) : M unit :=
  match n with
  | O => oof
  | Datatypes.S n' =>
      d <- mdone ;;
      if (d : bool) then ret tt
      else
        fun s =>
        let l := inp s in
        (if has_prefix (s_ "<?") l then wrap parsePI ;; parseMisc n'
         else if has_prefix (s_ "<!--") l then wrap parseComment ;; parseMisc n'
         else if isBlankCh (peek E l) then mskip ;; parseMisc n'
         else ret tt) s
  end.

(* ---- the internal subset ---- *)

(* /repo/parserctx.go:2013-2074; parseExternalID (3937-3943) is a stub that
   returns "", "", nil *)
Definition parseDocTypeDecl : M unit :=
  ok <- mconsume (s_ "<!DOCTYPE") ;;
  if negb ok then failw "ErrInvalidDTD"
  else
    mskip ;;
    name <- lift (por_else (parseName E) (PErr (Plain "ErrDocTypeNameRequired"))) ;;
    modify (set_intSubName name) ;;
    mskip ;;
    emit (EInternalSubset name [] []) ;;
    c <- mpeek ;;
    if c =? 91 then ret tt
    else if negb (c =? 62) then failw "ErrDocTypeNotFinished"
    else madvance 1.

(* /repo/parserctx.go:2232-2344 *)
Definition parsePEReference : M unit :=
  c <- mpeek ;;
  if negb (c =? 37) then ret tt
  else
    madvance 1 ;;
    name <- lift (pwrap (parseName E)) ;;
    c2 <- mpeek ;;
    if negb (c2 =? 59) then failw "ErrSemicolonRequired"
    else
      madvance 1 ;;
      a <- queryPEntity name ;;
      let entity := if snd a then None else fst a in
      sa <- get standalone ;;
      pe <- get hasPERefs ;;
      match entity with
      | None =>
          if (sa =? StandaloneExplicitYes) || negb pe then fail (Plain "PEReference not found")
          else modify (set_hasPERefs true)
      | Some _ => modify (set_hasPERefs true)
      end.

(* /repo/parserctx.go:2356-2471 *)
Definition parseElementDecl (n : nat) : M unit :=
  r <- lift (scanElementDecl E n) ;;
  let '(name, typ, content) := r in
  emit (EElementDecl name typ content).

(* the unquoted branch for general entities (3145-3229): literal and uri are ""  *)
Definition unquotedEntity (name : str) : M unit :=
  c <- mpeek ;;
  if negb (c =? 62) && negb (isBlankCh c) then failw "ErrSpaceRequired"
  else
    mskip ;;
    nd <- mconsume (s_ "NDATA") ;;
    if (nd : bool) then
      b <- mskip ;;
      if negb b then failw "ErrSpaceRequired"
      else
        ndata <- lift (pwrap (parseName E)) ;;
        emit (EEntityDecl name ExternalParameterEntity [] [] ndata)
    else emit (EEntityDecl name ExternalParameterEntity [] [] []).

(* /repo/parserctx.go:3034-3263.  An error of parseEntityValue is dropped: the
   entity is then not declared and the declaration goes on being read. *)
Definition parseEntityDecl : M unit :=
  ok <- mconsume (s_ "<!ENTITY") ;;
  if negb ok then failw "<!ENTITY not started"
  else
    b <- mskip ;;
    if negb b then failw "ErrSpaceRequired"
    else
      c <- mpeek ;;
      isP <- (if c =? 37
              then madvance 1 ;; b2 <- mskip ;; if negb b2 then failw "ErrSpaceRequired" else ret true
              else ret false) ;;
      name <- lift (pwrap (parseName E)) ;;
      if mem_byte 58 name then failw "colons are forbidden from entity names"
      else
        b3 <- mskip ;;
        if negb b3 then failw "ErrSpaceRequired"
        else
          c2 <- mpeek ;;
          literal <-
            (if (c2 =? 34) || (c2 =? 39) then
               r <- lift (ptry (parseEntityValue E)) ;;
               match r with
               | inr (literal, value) =>
                   emit (EEntityDecl name (if isP : bool then InternalParameterEntity else InternalGeneralEntity) [] [] value) ;;
                   ret literal
               | inl _ => ret []
               end
             else (if isP : bool then ret tt else unquotedEntity name) ;; ret []) ;;
          mskip ;;
          c3 <- mpeek ;;
          if negb (c3 =? 62) then failw "entity not terminated"
          else
            madvance 1 ;;
            a <- (if isP : bool then queryPEntity name else queryEntity name) ;;
            match fst a with
            | Some e => modify (fun s => set_hs (h_setOrig H (hs s) e literal) s)
            | None => ret tt
            end.

(* /repo/parserctx.go:3511-3556: (type, value) *)
Definition parseDefaultDecl (n : nat) : M (Z * str) :=
  rq <- mconsume (s_ "#REQUIRED") ;;
  if (rq : bool) then ret (DefRequired, [])
  else
    im <- mconsume (s_ "#IMPLIED") ;;
    if (im : bool) then ret (DefImplied, [])
    else
      fx <- mconsume (s_ "#FIXED") ;;
      deftype <- (if (fx : bool)
                  then c <- mpeek ;; if negb (isBlankCh c) then failw "ErrSpaceRequired" else mskip ;; ret DefFixed
                  else ret DefNone) ;;
      q <- mpeek ;;
      if negb ((q =? 34) || (q =? 39)) then failw "string not started"
      else
        madvance 1 ;;
        v <- wrap (parseAttributeValueInternal n q false) ;;
        c <- mpeek ;;
        if negb (c =? q) then failw "string not closed"
        else madvance 1 ;; ret (deftype, fst v).

(* /repo/parserctx.go:3771-3812 addAttributeDefault; m[attrName] = attr
   overwrites *)
Definition addAttributeDefault (elem att value : str) : M unit :=
  sp <- get attsSpecial ;;
  match lookupSpecial sp (special_key elem att) with
  | Some _ => ret tt
  | None =>
      let '(prefix, local) := prefix_local att in
      fun s =>
        let '(h', o) := h_createAttr H (hs s) local prefix value in
        let s' := set_hs h' s in
        match o with
        | Ret _ => (Ret tt, set_default
                      (filter (fun p => negb (str_eqb (fst (fst p)) elem && str_eqb (snd (fst p)) att)) (attsDefault s)
                       ++ [(elem, att, (local, prefix, value))]) s')
        | Fail _ => (Ret tt, s')
        | Pan => (Pan, s')
        | Oof => (Oof, s')
        end
  end.

(* /repo/parserctx.go:3851-3925, the loop of parseAttributeListDecl *)
Fixpoint attlistLoop (n : nat) (elem : str) : M unit :=
  match n with
  | O => oof
  | Datatypes.S n' =>
      c <- mpeek ;;
      if c =? 62 then ret tt
      else
        att <- lift (por_else (parseName E) (PErr (Plain "ErrAttributeNameRequired"))) ;;
        c1 <- mpeek ;;
        if negb (isBlankCh c1) then failw "ErrSpaceRequired"
        else
          mskip ;;
          te <- lift (pwrap (parseAttributeType E n')) ;;
          let '(typ, enum) := te in
          c2 <- mpeek ;;
          if negb (isBlankCh c2) then failw "ErrSpaceRequired"
          else
            mskip ;;
            dv <- wrap (parseDefaultDecl n') ;;
            let '(def, defvalue0) := dv in
            defvalue <- (if negb (typ =? AttrCDATA) && negb (def =? DefInvalid)
                         then mlift (attrNormalizeSpace defvalue0) else ret defvalue0) ;;
            c3 <- mpeek ;;
            (if c3 =? 62 then ret tt
             else if negb (isBlankCh c3) then failw "ErrSpaceRequired"
             else mskip ;; ret tt) ;;
            emit (EAttributeDecl elem att typ def defvalue enum) ;;
            (if negb (str_eqb defvalue []) && negb (def =? DefImplied) && negb (def =? DefRequired)
             then addAttributeDefault elem att defvalue else ret tt) ;;
            modify (fun s => set_special (putSpecial (special_key elem att) typ (attsSpecial s)) s) ;;
            c4 <- mpeek ;;
            if c4 =? 62 then madvance 1 else attlistLoop n' elem
  end.

(* /repo/parserctx.go:3826-3927 *)
Definition parseAttributeListDecl (n : nat) : M unit :=
  ok <- mconsume (s_ "<!ATTLIST") ;;
  if negb ok then ret tt
  else
    c <- mpeek ;;
    if negb (isBlankCh c) then failw "ErrSpaceRequired"
    else
      mskip ;;
      elem <- lift (pwrap (parseName E)) ;;
      mskip ;;
      attlistLoop n elem.

(* /repo/parserctx.go:2137-2204; parseNotationDecl (3929-3935) does nothing;
   ctx.external is false and inputTab has one entry *)
Definition parseMarkupDecl (n : nat) : M unit := fun s =>
  let l := inp s in
  (if peek E l =? 60 then
     if peekn E 2 l =? 33 then
       (let c3 := peekn E 3 l in
        let c4 := peekn E 4 l in
        if c3 =? 69 then
          if c4 =? 76 then wrap (parseElementDecl n)
          else if c4 =? 78 then wrap parseEntityDecl
          else ret tt
        else if c3 =? 65 then wrap (parseAttributeListDecl n)
        else if c3 =? 45 then wrap parseComment
        else ret tt) ;; wrap parsePEReference
     else if peekn E 2 l =? 63 then parsePI
     else wrap parsePEReference
   else wrap parsePEReference) s.

(* /repo/parserctx.go:2093-2102 *)
Fixpoint subsetLoop (n : nat) : M unit :=
  match n with
  | O => oof
  | Datatypes.S n' =>
      d <- mdone ;;
      c <- mpeek ;;
      if (d : bool) || (c =? 93) then ret tt
      else
        mskip ;;
        wrap (parseMarkupDecl n') ;;
        wrap parsePEReference ;;
        subsetLoop n'
  end.

(* /repo/parserctx.go:2076-2116, entered at '[' *)
Definition parseInternalSubset (n : nat) : M unit :=
  c <- mpeek ;;
  (if negb (c =? 91) then ret tt
   else
     madvance 1 ;;
     subsetLoop n ;;
     c2 <- mpeek ;;
     if c2 =? 93 then madvance 1 ;; mskip ;; ret tt else ret tt) ;;
  c3 <- mpeek ;;
  if negb (c3 =? 62) then failw "ErrDocTypeNotFinished" else madvance 1.

(* /repo/parserctx.go:441-474, the document type declaration *)
Definition parseDTD (n : nat) : M unit :=
  modify (set_inSubset 1) ;;
  wrap parseDocTypeDecl ;;
  sub <- mhas (s_ "[") ;;
  (if sub : bool then wrap (parseInternalSubset n) else ret tt) ;;
  modify (set_inSubset 2) ;;
  name <- get intSubName ;;
  emit (EExternalSubset name [] []) ;;
  modify (set_inSubset 0) ;;
  modify (fun s => set_special (filter (fun p => negb (snd p =? AttrCDATA)) (attsSpecial s)) s) ;;
  wrap (parseMisc n).

(* /repo/parserctx.go:339-371 switchEncoding; [detected] is
   ctx.detectedEncoding, "utf8" unless detectEncoding found something else *)
Definition switchEncoding (detected : str) : M unit := fun s =>
  let name := match encoding s with [] => detected | e => e end in
  match Load (lower E) name with
  | None => (Fail (Plain "encoding not supported"), s)
  | Some c => (Ret tt, set_inp (decode E c (inp s)) s)
  end.

(* /repo/parserctx.go:375-517 parseDocument; the input is the document's
   bytes until switchEncoding *)
Definition parseDocument (n : nat) : M unit :=
  emit ESetDocumentLocator ;;
  detected <- (fun s => match detectEncoding (inp s) with
                        | Some (enc, rest) => (Ret enc, set_inp rest s)
                        | None => (Ret encUTF8, s)
                        end) ;;
  d <- mdone ;;
  if (d : bool) then failw "empty document"
  else
    decl <- mhas (s_ "<?xml") ;;
    (if decl : bool
     then x <- lift (pwrap (parseXMLDecl E)) ;;
          modify (set_decl (xd_version x) (xd_encoding x) (xd_standalone x))
     else ret tt) ;;
    wrap (switchEncoding detected) ;;
    emit EStartDocument ;;
    wrap (parseMisc n) ;;
    dt <- mhas (s_ "<!DOCTYPE") ;;
    (if dt : bool then parseDTD n else ret tt) ;;
    mskip ;;
    c <- mpeek ;;
    if negb (c =? 60) then failw "ErrEmptyDocument"
    else
      wrap (parseElement n (parseContent n)) ;;
      wrap (parseMisc n) ;;
      fin <- mdone ;;
      if negb fin then failw "ErrDocumentEnd"
      else emit EEndDocument.

(* parserCtx.init, /repo/parserctx.go:195-212, and Parser.Parse,
   /repo/parser.go:21-36 *)
Definition init (h : S) (bytes : str) : pst := {|
  inp := bytes; nsTab := []; nodeTab := []; attsSpecial := []; attsDefault := []; hasPERefs := false;
  depth := 0; inSubset := 0; version := []; encoding := []; standalone := StandaloneImplicitNo;
  intSubName := []; hs := h; tr := [] |}.
Definition Parse (n : nat) (h : S) (bytes : str) : outcome gerr unit * pst := parseDocument n (init h bytes).

End Parser.

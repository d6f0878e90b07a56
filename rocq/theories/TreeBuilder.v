(* The SAX handler that builds the document: /repo/tree.go, with what the
   parser does on ctx.doc by itself. *)
From Verif Require Import Base Utf8 Escape Scan Parser Heap.

(* ctx.doc and ctx.elem of the parser context the callbacks receive *)
Record tb := { tb_heap : heap; tb_doc : option ptr; tb_elem : option ptr }.
Definition tb_init : tb := {| tb_heap := empty_heap; tb_doc := None; tb_elem := None |}.

(* attrData.Name(), /repo/parserctx.go:31-36, and Attribute.Name() *)
Definition attr_name (a : attr) : str :=
  match a with
  | AAttr local prefix _ => prefixed prefix local
  | ADefault local _ _ => local
  end.

(* the two loops of /repo/tree.go:101-116.  A nil entry of nslist panics, and so
   does ns.Prefix() there.  loadsubset is empty, so defaulted attributes are
   skipped. *)
Fixpoint setNamespaces (e : ptr) (l : list (option (str * str))) : HM unit :=
  match l with
  | [] => hret tt
  | None :: _ => hpan
  | Some (prefix, uri) :: r => SetNamespace e prefix uri false ;; setNamespaces e r
  end.
(* the second loop, /repo/tree.go:106-116 *)
Fixpoint setAttributes (n : nat) (e : ptr) (l : list attr) : HM unit :=
  match l with
  | [] => hret tt
  | ADefault _ _ _ :: r => setAttributes n e r
  | AAttr local prefix v :: r => SetAttribute n e (prefixed prefix local) v ;; setAttributes n e r
  end.

(* attach to ctx.elem, or to the document outside of every element; the error
   of AddChild is dropped (tree.go:65-72, 122-128, 203-210) *)
Definition attach (doc : option ptr) (elem : option ptr) (node : ptr) : HM unit :=
  match elem with
  | Some e => hignore (AddChild e node)
  | None => d <- deref doc ;; hignore (AddChild d node)
  end.

(* /repo/tree.go:76-133 StartElementNS: the new ctx.elem *)
Definition startElement (n : nat) (doc elem : option ptr) (local prefix uri : str)
           (nslist : list (option (str * str))) (attrs : list attr) : HM ptr :=
  e <- CreateElement doc local ;;
  match uri with [] => hret tt | _ => SetNamespace e prefix uri true end ;;
  setNamespaces e nslist ;;
  setAttributes n e attrs ;;
  attach doc elem e ;;
  hret e.

(* /repo/tree.go:135-157 EndElementNS: the new ctx.elem *)
Definition endElement (elem : option ptr) : HM (option ptr) :=
  match elem with
  | None => hfail "no context node to end"
  | Some e =>
      c <- getc e ;;
      match l_par (lk c) with
      | None => hret None
      | Some p => k <- getc p ;;
                  match dat k with
                  | DElem _ _ _ _ => hret (Some p)
                  | _ => hret None
                  end
      end
  end.

(* /repo/tree.go:159-176 Characters *)
Definition characters (elem : option ptr) (s : str) : HM unit :=
  match elem with
  | None => hfail "text content placed in wrong location"
  | Some e => AddContent e s
  end.

(* /repo/tree.go:46-74 ProcessingInstruction: inside the internal subset the
   same node is added to the DTD and to the document *)
Definition processingInstruction (doc elem : option ptr) (inSubset : Z) (target pidata : str) : HM unit :=
  pi <- CreatePI target pidata ;;
  (if inSubset =? 1 then d <- deref doc ;; x <- getDoc d ;; i <- deref (snd (fst x)) ;; hignore (AddChild i pi)
   else if inSubset =? 2 then d <- deref doc ;; x <- getDoc d ;; i <- deref (snd x) ;; hignore (AddChild i pi)
   else hret tt) ;;
  attach doc elem pi.

(* /repo/tree.go:186-212 Comment *)
Definition comment (doc elem : option ptr) (s : str) : HM unit :=
  match doc with
  | None => hfail "comment placed in wrong location"
  | Some _ => e <- CreateComment doc s ;; attach doc elem e
  end.

(* /repo/tree.go:214-239 InternalSubset *)
Definition internalSubset (doc : option ptr) (name ext sys : str) : HM unit :=
  d <- deref doc ;;
  x <- getDoc d ;;
  match x with
  | (v, e, s, Some _, xs) => setData d (DDoc v e s None xs)
  | _ => hret tt
  end ;;
  _ <- CreateInternalSubset d name ext sys ;;
  hret tt.

(* doc.intSubset or doc.extSubset by ctx.inSubset *)
Definition subset (doc : option ptr) (inSubset : Z) (err : string) : HM (option ptr) :=
  d <- deref doc ;;
  x <- getDoc d ;;
  if inSubset =? 1 then hret (snd (fst x))
  else if inSubset =? 2 then hret (snd x)
  else hfail err.

(* /repo/tree.go:299-354 AttributeDecl *)
Definition attributeDecl (doc : option ptr) (inSubset : Z) (elem att : str) (typ def : Z) (value : str)
           (enum : list str) : HM unit :=
  if str_eqb att (s_ "xml:id") && negb (typ =? AttrID) then hfail "xml:id: attribute type should be AttrID"
  else
    let '(prefix, local) := prefix_local att in
    dtd <- subset doc inSubset "TreeBuilder.AttributeDecl called while not in subset" ;;
    _ <- addAttributeDecl dtd elem local prefix typ def value enum ;;
    hret tt.

(* /repo/tree.go:356-380 ElementDecl; a nil DTD panics (in Go only after the
   tests of the content have passed; inSubset 2 with a nil external subset does
   not occur) *)
Definition elementDecl (doc : option ptr) (inSubset : Z) (name : str) (typ : Z) (content : option econt) : HM unit :=
  dtd <- subset doc inSubset "sax.ElementDecl called while not in subset" ;;
  p <- deref dtd ;;
  _ <- AddElementDecl p name typ content ;;
  hret tt.

(* /repo/tree.go:509-548 EntityDecl *)
Definition entityDecl (doc : option ptr) (inSubset : Z) (name : str) (typ : Z) (ext sys content : str) : HM unit :=
  dtd <- subset doc inSubset "sax.EntityDecl called while note in subset" ;;
  p <- deref dtd ;;
  _ <- AddEntity p name typ ext sys content ;;
  hret tt.

(* /repo/tree.go:449-471 Reference: name[0] of an empty name panics, and so
   does AddChild on a nil ctx.elem *)
Definition reference (doc elem : option ptr) (name : str) : HM unit :=
  match name with
  | [] => hpan
  | c :: _ =>
      r <- (if c =? 35 then CreateCharRef doc name else CreateReference doc name) ;;
      e <- deref elem ;;
      AddChild e r
  end.

(* One callback.  The fuel n is that of stringToNodeList. *)
Definition tb_action (n : nat) (s : tb) (v : view) (e : event) : HM (option ptr * option ptr) :=
  let doc := tb_doc s in
  let elem := tb_elem s in
  let same (m : HM unit) := m ;; hret (doc, elem) in
  match e with
  | ESetDocumentLocator => same (hret tt)
  | EStartDocument => d <- NewDocument (v_version v) (v_encoding v) (v_standalone v) ;; hret (Some d, elem)
  | EEndDocument => same (hret tt)
  | EProcessingInstruction t d => same (processingInstruction doc elem (v_inSubset v) t d)
  | EStartElement l p u ns atts => x <- startElement n doc elem l p u ns atts ;; hret (doc, Some x)
  | EEndElement _ _ _ => x <- endElement elem ;; hret (doc, x)
  | ECharacters t => same (characters elem t)
  | ECDataBlock _ => same (hret tt)                    (* tree.go:178-184: dropped *)
  | EIgnorableWhitespace t => same (characters elem t) (* tree.go:417-429: keepBlanks is true *)
  | EComment t => same (comment doc elem t)
  | EInternalSubset nm x y => same (internalSubset doc nm x y)
  | EExternalSubset _ _ _ => same (hret tt)
  | EReference nm => same (reference doc elem nm)
  | EEntityDecl nm t x y c => same (entityDecl doc (v_inSubset v) nm t x y c)
  | EElementDecl nm t c => same (elementDecl doc (v_inSubset v) nm t c)
  | EAttributeDecl el at_ t d val en => same (attributeDecl doc (v_inSubset v) el at_ t d val en)
  end.

(* What an error, a panic or a call that never returns (stringToNodeList on an
   entity that refers to itself overflows the stack) leaves: ctx.doc and
   ctx.elem as they were.  Out of fuel is reported as a panic. *)
Definition tb_event (n : nat) (s : tb) (v : view) (e : event) : tb * hres :=
  match tb_action n s v e (tb_heap s) with
  | (Ret (d, x), h) => ({| tb_heap := h; tb_doc := d; tb_elem := x |}, HNil)
  | (Fail _, h) => ({| tb_heap := h; tb_doc := tb_doc s; tb_elem := tb_elem s |}, HError 1)
  | (Pan, h) => ({| tb_heap := h; tb_doc := tb_doc s; tb_elem := tb_elem s |}, HPanic)
  | (Oof, h) => ({| tb_heap := h; tb_doc := tb_doc s; tb_elem := tb_elem s |}, HPanic)
  end.

(* an *Entity as the parser reads it (the record ent of Parser.v) *)
Definition read_entity (h : heap) (p : ptr) : option ent :=
  match hget h p with
  | Some c => match dat c with
              | DEntity nm t _ _ s _ => Some {| e_id := Z.pos p; e_name := nm; e_type := t; e_content := s |}
              | _ => None
              end
  | None => None
  end.

(* /repo/tree.go:257-274 GetEntity *)
Definition tb_getEntity (s : tb) (_ : view) (name : str) : tb * answer :=
  match GetEntity (tb_doc s) name (tb_heap s) with
  | (Ret (Some p), h) => match read_entity h p with
                         | Some e => (s, Answer (Some (Real e)) false)
                         | None => (s, AnswerPanic)
                         end
  | (Ret None, _) => (s, Answer None true)
  | _ => (s, AnswerPanic)
  end.
(* /repo/tree.go:276-297 GetParameterEntity *)
Definition tb_getPEntity (s : tb) (_ : view) (name : str) : tb * answer :=
  match tb_doc s with
  | None => (s, Answer None true)
  | Some _ =>
      match GetParameterEntity (tb_doc s) name (tb_heap s) with
      | (Ret (Some p), h) => match read_entity h p with
                             | Some e => (s, Answer (Some (Real e)) false)
                             | None => (s, AnswerPanic)
                             end
      | (Ret None, _) => (s, Answer None true)
      | _ => (s, AnswerPanic)
      end
  end.

(* no code of /repo: replacing the heap of the state *)
Definition with_heap (h : heap) (s : tb) : tb := {| tb_heap := h; tb_doc := tb_doc s; tb_elem := tb_elem s |}.

(* Entity.SetOrig, /repo/entity.go:43-45 *)
Definition tb_setOrig (s : tb) (e : entref) (orig : str) : tb :=
  match e with
  | Foreign _ => s
  | Real x =>
      match e_id x with
      | Zpos p =>
          match hget (tb_heap s) p with
          | Some c => match dat c with
                      | DEntity nm t a b cn _ =>
                          with_heap (hset (tb_heap s) p (with_dat (DEntity nm t a b cn orig) c)) s
                      | _ => s
                      end
          | None => s
          end
      | _ => s
      end
  end.

(* IsMixedElement as areBlanks uses it: an error counts as false *)
Definition tb_mixed (s : tb) (name : str) : option bool :=
  match tb_doc s with
  | None => None
  | Some _ => match IsMixedElement (tb_doc s) name (tb_heap s) with
              | (Ret b, _) => Some b
              | _ => Some false
              end
  end.

(* ctx.doc.GetEntity at /repo/parserctx.go:4514-4525 *)
Definition tb_docEntity (s : tb) (name : str) : option (option ent) :=
  match GetEntity (tb_doc s) name (tb_heap s) with
  | (Ret (Some p), h) => Some (read_entity h p)
  | (Ret None, _) => Some None
  | _ => None
  end.

(* /repo/parserctx.go:3796 *)
Definition tb_createAttr (n : nat) (s : tb) (local prefix value : str) : tb * outcome unit unit :=
  match CreateAttribute n (tb_doc s) local value (tb_heap s) with
  | (Ret _, h) => (with_heap h s, Ret tt)
  | (Fail _, h) => (with_heap h s, Fail tt)
  | (Pan, h) => (with_heap h s, Pan)
  | (Oof, h) => (with_heap h s, Oof)
  end.

(* /repo/parserctx.go:3983-4007: the document loses its children, gets the
   pseudoroot, and the new context has no current element *)
Definition tb_chunkEnter (s : tb) : tb :=
  let '(d, h) := match tb_doc s with
                 | Some d => (d, tb_heap s)
                 | None => match NewDocument (s_ "1.0") [] StandaloneExplicitNo (tb_heap s) with
                           | (Ret d, h) => (d, h)
                           | (_, h) => (1%positive, h)
                           end
                 end in
  let h' := snd ((setFirst d None ;; setLast d None ;;
                  r <- CreateElement (Some d) (s_ "pseudoroot") ;;
                  hignore (AddChild d r)) h) in
  {| tb_heap := h'; tb_doc := Some d; tb_elem := None |}.
(* /repo/parserctx.go:3992-3995: the children of the document come back, those
   of the chunk are dropped *)
Definition tb_chunkLeave (s0 s1 : tb) : tb :=
  match tb_doc s1 with
  | None => {| tb_heap := tb_heap s1; tb_doc := tb_doc s1; tb_elem := tb_elem s0 |}
  | Some d =>
      let '(fc, lc) := match tb_doc s0 with
                       | Some d0 => match hget (tb_heap s0) d0 with
                                    | Some c => (l_first (lk c), l_last (lk c))
                                    | None => (None, None)
                                    end
                       | None => (None, None)
                       end in
      {| tb_heap := snd ((setFirst d fc ;; setLast d lc) (tb_heap s1));
         tb_doc := tb_doc s1; tb_elem := tb_elem s0 |}
  end.

(* The tree builder as a handler of Parser.v *)
Definition treeH (n : nat) : handler tb := {|
  h_event := tb_event n;
  h_getEntity := tb_getEntity;
  h_getPEntity := tb_getPEntity;
  h_setOrig := tb_setOrig;
  h_mixed := tb_mixed;
  h_docEntity := tb_docEntity;
  h_createAttr := tb_createAttr n;
  h_chunkEnter := tb_chunkEnter;
  h_chunkLeave := tb_chunkLeave |}.

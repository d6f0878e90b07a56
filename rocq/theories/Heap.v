(* The document tree of /repo: nodes are cells of a heap that point to each
   other.  Files modelled: node.go, element.go, text.go, comment.go, attr.go,
   pi.go, reference.go, entity.go, document.go, dtd.go, the types of
   interface.go and the functions of parserctx.go and valid.go that work on
   the tree. *)
From Coq Require Import FMapPositive.
From Verif Require Import Base Utf8 Escape Scan.

(* A non-nil Go pointer to a node; nil is None. *)
Definition ptr := positive.

(* /repo/interface.go:112-121 docnode: the five links *)
Record links := Lk {
  l_first : option ptr; l_last : option ptr; l_par : option ptr;
  l_next : option ptr; l_prev : option ptr }.
Definition nolinks : links := Lk None None None None None.

(* The maps of a DTD, /repo/interface.go:159-167, as association lists with
   one entry per key (the iteration order of a Go map is never used). *)
Definition table := list (str * ptr).
Record tables := { t_attrs : table; t_elems : table; t_ents : table; t_pents : table }.
Definition notables : tables := {| t_attrs := []; t_elems := []; t_ents := []; t_pents := [] |}.

(* A namespace: prefix and href, /repo/interface.go:169-174 (etype and context
   are written once and never read). *)
Definition nspair := (str * str)%type.

(* What a node is and what it holds besides its links, one constructor per Go
   type, /repo/interface.go:143-345.  Left out: node.private (never used), the
   content field of an EntityRef (written by CreateReference, never read), the
   ns of an Attribute (read only by Attribute.Prefix and URI, which nothing
   calls), ElementDecl.attributes (always nil), and Entity.uri, owner and
   checked (never written by code that is reached). *)
Inductive data :=
| DDoc (version encoding : str) (standalone : Z) (intSubset extSubset : option ptr)
| DElem (name : str) (ns : option nspair) (nsDefs : list nspair) (props : option ptr)
| DText (content : str)
| DComment (content : str)
| DPI (target pidata : str)
| DAttr (name : str) (dflt : bool)
| DRef (name : str)
| DEntity (name : str) (typ : Z) (ext sys content orig : str)
| DDtd (name ext sys : str) (tabs : tables)
| DElemDecl (name prefix : str) (typ : Z) (content : option econt)
| DAttrDecl (elem name prefix : str) (atype def : Z) (value : str) (enum : list str).

(* lk: the links; owner: docnode.doc *)
Record cell := { lk : links; owner : option ptr; dat : data }.

(* no code of /repo: the memory, with the next free address *)
Record heap := { cells : PositiveMap.t cell; nxt : positive }.
Definition empty_heap : heap := {| cells := PositiveMap.empty cell; nxt := 1%positive |}.
Definition hget (h : heap) (p : ptr) : option cell := PositiveMap.find p (cells h).
Definition hset (h : heap) (p : ptr) (c : cell) : heap :=
  {| cells := PositiveMap.add p c (cells h); nxt := nxt h |}.

(* The Go errors of this part, by name. *)
Notation herr := string.
(* no code of /repo: programs over the heap (sequencing, failing, panicking,
   running out of fuel) *)
Definition HM (A : Type) := heap -> outcome herr A * heap.
Definition hret {A} (a : A) : HM A := fun h => (Ret a, h).
Definition hfail {A} (e : string) : HM A := fun h => (Fail e, h).
Definition hpan {A} : HM A := fun h => (Pan, h).
Definition hoof {A} : HM A := fun h => (Oof, h).
Definition hbind {A B} (m : HM A) (f : A -> HM B) : HM B := fun h =>
  match m h with
  | (Ret a, h') => f a h'
  | (Fail e, h') => (Fail e, h')
  | (Pan, h') => (Pan, h')
  | (Oof, h') => (Oof, h')
  end.
(* _ = m : the error is dropped *)
Definition hignore (m : HM unit) : HM unit := fun h =>
  match m h with
  | (Fail _, h') => (Ret tt, h')
  | r => r
  end.
Declare Scope heap_scope.
Delimit Scope heap_scope with heap.
Notation "x <- m ;; k" := (hbind m (fun x => k)) (at level 61, m at next level, right associativity) : heap_scope.
Notation "m ;; k" := (hbind m (fun _ => k)) (at level 61, right associativity) : heap_scope.
Open Scope heap_scope.

(* the same for functions that only read *)
Definition obind {E A B} (o : outcome E A) (f : A -> outcome E B) : outcome E B :=
  match o with
  | Ret a => f a
  | Fail e => Fail e
  | Pan => Pan
  | Oof => Oof
  end.

(* reading and writing a cell; a dangling pointer does not exist in Go, a nil
   one panics *)
Definition getc (p : ptr) : HM cell := fun h =>
  match hget h p with Some c => (Ret c, h) | None => (Pan, h) end.
Definition setc (p : ptr) (c : cell) : HM unit := fun h => (Ret tt, hset h p c).
Definition deref (o : option ptr) : HM ptr :=
  match o with Some p => hret p | None => hpan end.
Definition alloc (o : option ptr) (d : data) : HM ptr := fun h =>
  (Ret (nxt h), {| cells := PositiveMap.add (nxt h) {| lk := nolinks; owner := o; dat := d |} (cells h);
                   nxt := Pos.succ (nxt h) |}).
(* no code of /repo: assigning one field of a node *)
Definition with_lk (f : links -> links) (c : cell) : cell := {| lk := f (lk c); owner := owner c; dat := dat c |}.
Definition with_dat (d : data) (c : cell) : cell := {| lk := lk c; owner := owner c; dat := d |}.
Definition with_owner (o : option ptr) (c : cell) : cell := {| lk := lk c; owner := o; dat := dat c |}.
Definition upd (f : cell -> cell) (p : ptr) : HM unit := c <- getc p ;; setc p (f c).

(* /repo/node.go:30-40 and 155-165: the setters *)
Definition lset_first (v : option ptr) (l : links) := Lk v (l_last l) (l_par l) (l_next l) (l_prev l).
Definition lset_last (v : option ptr) (l : links) := Lk (l_first l) v (l_par l) (l_next l) (l_prev l).
Definition lset_par (v : option ptr) (l : links) := Lk (l_first l) (l_last l) v (l_next l) (l_prev l).
Definition lset_next (v : option ptr) (l : links) := Lk (l_first l) (l_last l) (l_par l) v (l_prev l).
Definition lset_prev (v : option ptr) (l : links) := Lk (l_first l) (l_last l) (l_par l) (l_next l) v.
Definition setFirst (p : ptr) (v : option ptr) : HM unit := upd (with_lk (lset_first v)) p.
Definition setLast (p : ptr) (v : option ptr) : HM unit := upd (with_lk (lset_last v)) p.
Definition setPar (p : ptr) (v : option ptr) : HM unit := upd (with_lk (lset_par v)) p.
Definition setNext (p : ptr) (v : option ptr) : HM unit := upd (with_lk (lset_next v)) p.
Definition setPrev (p : ptr) (v : option ptr) : HM unit := upd (with_lk (lset_prev v)) p.
Definition setOwner (p : ptr) (v : option ptr) : HM unit := upd (with_owner v) p.
Definition setData (p : ptr) (d : data) : HM unit := upd (with_dat d) p.

(* Type(): the etype field, /repo/interface.go:185-209; newAttribute never
   sets it (attr.go:29-34), a ProcessingInstruction overrides Type (pi.go:3-5) *)
Definition ElementNode : Z := 1.
Definition TextNode : Z := 3.
Definition EntityRefNode : Z := 5.
Definition EntityNode : Z := 6.
Definition PINode : Z := 7.
Definition CommentNode : Z := 8.
Definition DocumentNode : Z := 9.
Definition DTDNode : Z := 14.
Definition ElementDeclNode : Z := 15.
Definition AttributeDeclNode : Z := 16.
Definition typeOf (d : data) : Z :=
  match d with
  | DDoc _ _ _ _ _ => DocumentNode
  | DElem _ _ _ _ => ElementNode
  | DText _ => TextNode
  | DComment _ => CommentNode
  | DPI _ _ => PINode
  | DAttr _ _ => 0
  | DRef _ => EntityRefNode
  | DEntity _ _ _ _ _ _ => EntityNode
  | DDtd _ _ _ _ => DTDNode
  | DElemDecl _ _ _ _ => ElementDeclNode
  | DAttrDecl _ _ _ _ _ _ _ => AttributeDeclNode
  end.

(* the name of a declaration as addressed by its prefix: prefix, colon, local
   name *)
Definition prefixed (prefix local : str) : str :=
  match prefix with [] => local | _ => prefix ++ [58] ++ local end.

(* Name(): /repo/node.go:85-87 for a docnode, 230-235 for a node *)
Definition nameOf (d : data) : str :=
  match d with
  | DDoc _ _ _ _ _ => s_ "(document)"
  | DElem name ns _ _ => match ns with Some (prefix, _) => prefixed prefix name | None => name end
  | DText _ => s_ "(text)"
  | DComment _ => []
  | DPI _ _ => []
  | DAttr name _ => name
  | DRef name => name
  | DEntity name _ _ _ _ _ => name
  | DDtd name _ _ _ => name
  | DElemDecl name _ _ _ => name
  | DAttrDecl _ name _ _ _ _ _ => name
  end.

(* One more than the number of cells: a walk along next pointers that takes
   longer has met a cell twice, and never ends. *)
Definition size (h : heap) : nat := S (Pos.to_nat (nxt h)).

(* ---------- siblings and children ---------- *)

(* the walk of addSibling, /repo/node.go:138-150 *)
Fixpoint lastSibling (n : nat) (p : ptr) : HM ptr :=
  match n with
  | O => hoof
  | S n' => c <- getc p ;;
            match l_next (lk c) with
            | None => hret p
            | Some q => lastSibling n' q
            end
  end.
(* /repo/node.go:137-153 addSibling *)
Definition addSibling (p cur : ptr) : HM unit :=
  q <- (fun h => lastSibling (size h) p h) ;;
  setNext q (Some cur) ;;
  setPrev cur (Some q) ;;
  c <- getc q ;;
  setPar cur (l_par (lk c)) ;;
  match l_par (lk c) with
  | Some pp => setLast pp (Some cur)
  | None => hret tt
  end.
(* AddSibling of each type: text.go:37-46, document.go:48-50, and addSibling
   for all the others *)
Definition AddSibling (p cur : ptr) : HM unit :=
  c <- getc p ;;
  match dat c with
  | DText s => k <- getc cur ;;
               match dat k with
               | DText t => setData p (DText (s ++ t))
               | _ => addSibling p cur
               end
  | DDoc _ _ _ _ _ => hfail "can't add sibling to a document"
  | _ => addSibling p cur
  end.
(* /repo/node.go:101-124 addChild *)
Definition addChild (p cur : ptr) : HM unit :=
  c <- getc p ;;
  match l_last (lk c) with
  | None =>
      setFirst p (Some cur) ;;
      setLast p (Some cur) ;;
      setPar cur (Some p)
  | Some l =>
      AddSibling l cur ;;
      k <- getc cur ;;
      lc <- getc l ;;
      if (typeOf (dat k) =? TextNode) && (typeOf (dat lc) =? TextNode)
      then setLast p (Some l) else hret tt
  end.
(* AddChild of each type: text.go:14-24, comment.go:10-20, addChild for all
   the others *)
Definition AddChild (p cur : ptr) : HM unit :=
  c <- getc p ;;
  match dat c with
  | DText s => k <- getc cur ;;
               match dat k with
               | DText t => setData p (DText (s ++ t))
               | _ => hfail "ErrInvalidOperation"
               end
  | DComment s => k <- getc cur ;;
               match dat k with
               | DComment t => setData p (DComment (s ++ t))
               | _ => hfail "ErrInvalidOperation"
               end
  | _ => addChild p cur
  end.
(* AddContent: text.go:26-35, comment.go:22-25, and addContent (node.go:58-61)
   for all the others *)
Definition AddContent (p : ptr) (b : str) : HM unit :=
  c <- getc p ;;
  match dat c with
  | DText s => setData p (DText (s ++ b))
  | DComment s => setData p (DComment (s ++ b))
  | _ => t <- alloc None (DText b) ;; AddChild p t
  end.

(* /repo/node.go:167-187 replaceNode *)
Definition optr_eqb (a b : option ptr) : bool :=
  match a, b with
  | Some x, Some y => Pos.eqb x y
  | None, None => true
  | _, _ => false
  end.
Definition replaceNode (p cur : ptr) : HM unit :=
  c <- getc p ;;
  match l_next (lk c) with
  | Some nx => setNext cur (Some nx) ;; setPrev nx (Some cur)
  | None => hret tt
  end ;;
  c2 <- getc p ;;
  match l_prev (lk c2) with
  | Some pv => setPrev cur (Some pv) ;; setNext pv (Some cur)
  | None => hret tt
  end ;;
  c3 <- getc p ;;
  match l_par (lk c3) with
  | Some pp =>
      pc <- getc pp ;;
      (if optr_eqb (l_first (lk pc)) (Some p) then setFirst pp (Some cur) else hret tt) ;;
      pc2 <- getc pp ;;
      (if optr_eqb (l_last (lk pc2)) (Some p) then setLast pp (Some cur) else hret tt) ;;
      setPar cur (Some pp)
  | None => hret tt
  end.
(* Replace: document.go:82-84 panics, replaceNode for all the others *)
Definition Replace (p cur : ptr) : HM unit :=
  c <- getc p ;;
  match dat c with
  | DDoc _ _ _ _ _ => hpan
  | _ => replaceNode p cur
  end.

(* ---------- reading ---------- *)

(* Content(): text.go:48-50, comment.go:32-34, entity.go:51-53, and
   docnode.Content (node.go:50-56) for all the others.  n is the fuel. *)
Fixpoint content (h : heap) (n : nat) (p : ptr) {struct n} : outcome herr str :=
  match n with
  | O => Oof
  | S n' =>
      match hget h p with
      | None => Pan
      | Some c =>
          match dat c with
          | DText s => Ret s
          | DComment s => Ret s
          | DEntity _ _ _ _ s _ => Ret s
          | _ => contents h n' (l_first (lk c))
          end
      end
  end
with contents (h : heap) (n : nat) (o : option ptr) {struct n} : outcome herr str :=
  match o with
  | None => Ret []
  | Some p =>
      match n with
      | O => Oof
      | S n' =>
          match hget h p with
          | None => Pan
          | Some c =>
              obind (content h n' p) (fun s =>
              obind (contents h n' (l_next (lk c))) (fun r => Ret (s ++ r)))
          end
      end
  end.
Definition Content (n : nat) (p : ptr) : HM str := fun h => (content h n p, h).

(* /repo/node.go:65-79 Walk.  The callback has a state W and answers an error
   or nil; it does not change the tree (in Go it may).  The nil node of line
   57 is the caller's None. *)
Section Walk.
Context {W : Type}.
Variable h : heap.
Variable f : W -> ptr -> W * option herr.
Fixpoint walk (n : nat) (p : ptr) (w : W) {struct n} : outcome herr unit * W :=
  match n with
  | O => (Oof, w)
  | S n' =>
      match f w p with
      | (w1, Some e) => (Fail e, w1)
      | (w1, None) =>
          match hget h p with
          | None => (Pan, w1)
          | Some c => walks n' (l_first (lk c)) w1
          end
      end
  end
with walks (n : nat) (o : option ptr) (w : W) {struct n} : outcome herr unit * W :=
  match o with
  | None => (Ret tt, w)
  | Some p =>
      match n with
      | O => (Oof, w)
      | S n' =>
          match walk n' p w with
          | (Ret _, w1) =>
              match hget h p with
              | None => (Pan, w1)
              | Some c => walks n' (l_next (lk c)) w1
              end
          | r => r
          end
      end
  end.
Definition Walk (n : nat) (o : option ptr) (w : W) : outcome herr unit * W :=
  match o with
  | None => (Fail "nil node"%string, w)
  | Some p => walk n p w
  end.
End Walk.

(* ---------- owner documents ---------- *)

(* /repo/node.go:237-272 setListDoc, setTreeDoc.  No node type answers
   NamespaceDeclNode, so that test is left out.  The attribute chain is walked
   with NextAttribute, whose type assertion panics on any other node. *)
Fixpoint setTreeDoc (n : nat) (d : option ptr) (p : ptr) {struct n} : HM unit :=
  match n with
  | O => hoof
  | S n' =>
      c <- getc p ;;
      if optr_eqb (owner c) d then hret tt
      else
        match dat c with
        | DElem _ _ _ props => setAttrsDoc n' d props
        | _ => hret tt
        end ;;
        c2 <- getc p ;;
        setListDoc n' d (l_first (lk c2)) ;;
        setOwner p d
  end
with setListDoc (n : nat) (d : option ptr) (o : option ptr) {struct n} : HM unit :=
  match o with
  | None => hret tt
  | Some p =>
      match n with
      | O => hoof
      | S n' =>
          c <- getc p ;;
          (if optr_eqb (owner c) d then hret tt else setTreeDoc n' d p) ;;
          c2 <- getc p ;;
          setListDoc n' d (l_next (lk c2))
      end
  end
with setAttrsDoc (n : nat) (d : option ptr) (o : option ptr) {struct n} : HM unit :=
  match o with
  | None => hret tt
  | Some a =>
      match n with
      | O => hoof
      | S n' =>
          c <- getc a ;;
          match dat c with
          | DAttr _ _ =>
              setOwner a d ;;
              c1 <- getc a ;;
              setListDoc n' d (l_first (lk c1)) ;;
              c2 <- getc a ;;
              setAttrsDoc n' d (l_next (lk c2))
          | _ => hpan
          end
      end
  end.

(* ---------- DTD tables ---------- *)

(* Go map operations m[k], delete(m, k), m[k] = p on the tables of a DTD *)
Definition tget (t : table) (k : str) : option ptr :=
  match find (fun e => str_eqb (fst e) k) t with Some (_, p) => Some p | None => None end.
Definition tdel (t : table) (k : str) : table := filter (fun e => negb (str_eqb (fst e) k)) t.
Definition tput (t : table) (k : str) (p : ptr) : table := (k, p) :: tdel t k.

(* the fields of *DTD, /repo/interface.go:159-167, and of *Document, 143-152 *)
Definition getDtd (p : ptr) : HM (str * str * str * tables) :=
  c <- getc p ;;
  match dat c with DDtd n e s t => hret (n, e, s, t) | _ => hpan end.
Definition setTables (p : ptr) (t : tables) : HM unit :=
  x <- getDtd p ;; match x with (n, e, s, _) => setData p (DDtd n e s t) end.
Definition getDoc (p : ptr) : HM (str * str * Z * option ptr * option ptr) :=
  c <- getc p ;;
  match dat c with DDoc v e s i x => hret (v, e, s, i, x) | _ => hpan end.

(* /repo/dtd.go:158-161 LookupEntity, 163-166 LookupParameterEntity *)
Definition LookupEntity (dtd : ptr) (name : str) : HM (option ptr) :=
  x <- getDtd dtd ;; hret (tget (t_ents (snd x)) name).
Definition LookupParameterEntity (dtd : ptr) (name : str) : HM (option ptr) :=
  x <- getDtd dtd ;; hret (tget (t_pents (snd x)) name).
(* /repo/document.go:247-275 GetEntity, 277-287 GetParameterEntity.  A nil
   receiver panics. *)
Definition GetEntity (d : option ptr) (name : str) : HM (option ptr) :=
  p <- deref d ;;
  x <- getDoc p ;;
  match x with
  | (_, _, _, Some i, _) => LookupEntity i name
  | (_, _, _, None, Some e) => LookupEntity e name
  | (_, _, _, None, None) => hret None
  end.
Definition GetParameterEntity (d : option ptr) (name : str) : HM (option ptr) :=
  p <- deref d ;;
  x <- getDoc p ;;
  match x with
  | (_, _, _, Some i, _) => LookupParameterEntity i name
  | (_, _, _, None, Some e) => LookupParameterEntity e name
  | (_, _, _, None, None) => hret None
  end.

(* /repo/dtd.go:21-43 AddEntity.  The error of AddChild is dropped. *)
Definition AddEntity (dtd : ptr) (name : str) (typ : Z) (pub sys content : str) : HM ptr :=
  x <- getDtd dtd ;;
  match x with
  | (_, _, _, t) =>
      if (typ =? 6) then hfail "cannot register a predefined entity"
      else if negb ((1 <=? typ) && (typ <=? 5)) then hfail "invalid entity type"
      else
        c <- getc dtd ;;
        ent <- alloc (owner c) (DEntity name typ pub sys content []) ;;
        setTables dtd (if typ <=? 3
          then {| t_attrs := t_attrs t; t_elems := t_elems t; t_ents := tput (t_ents t) name ent; t_pents := t_pents t |}
          else {| t_attrs := t_attrs t; t_elems := t_elems t; t_ents := t_ents t; t_pents := tput (t_pents t) name ent |}) ;;
        hignore (AddChild dtd ent) ;;
        hret ent
  end.

(* dtd.elements[k] = v and dtd.attributes[k] = v *)
Definition with_elems (e : table) (t : tables) : tables :=
  {| t_attrs := t_attrs t; t_elems := e; t_ents := t_ents t; t_pents := t_pents t |}.
Definition with_attrs (a : table) (t : tables) : tables :=
  {| t_attrs := a; t_elems := t_elems t; t_ents := t_ents t; t_pents := t_pents t |}.

(* /repo/valid.go:46-84 copyElementContent.  c1 is copied by recursion, the
   chain of c2 by a loop; both visit the same cells, so the loop is written as
   recursion as well.  The parent pointers are not part of the value. *)
Fixpoint copyElementContent (e : econt) : econt :=
  match e with
  | EC ct oc name prefix c1 c2 =>
      EC ct oc name prefix
         (match c1 with Some x => Some (copyElementContent x) | None => None end)
         (match c2 with Some x => Some (copyElementContent x) | None => None end)
  end.

(* the key of dtd.elements: /repo/dtd.go:125, 134 *)
Definition elem_key (name prefix : str) : str := name ++ [58] ++ prefix.
(* strings.IndexByte(name, ':') and the two slices: prefix_local of Scan.v *)
(* /repo/dtd.go:45-122 AddElementDecl *)
Definition declType (p : ptr) : HM Z :=
  c <- getc p ;; match dat c with DElemDecl _ _ t _ => hret t | _ => hpan end.
Definition AddElementDecl (dtd : ptr) (name : str) (typ : Z) (content : option econt) : HM ptr :=
  _ <- getDtd dtd ;;
  (if (typ =? EmptyElementType) || (typ =? AnyElementType) then
     match content with Some _ => hfail "content must be nil for EMPTY/ANY elements" | None => hret tt end
   else if (typ =? MixedElementType) || (typ =? ElementElementType) then
     match content with None => hfail "content must be non-nil for MIXED/ELEMENT elements" | Some _ => hret tt end
   else hfail "invalid ElementContent") ;;
  let '(prefix, local) := prefix_local name in
  let key := elem_key local prefix in
  c <- getc dtd ;;
  match owner c with
  | None => hret tt
  | Some d =>
      x <- getDoc d ;;
      match x with
      | (_, _, _, Some i, _) =>
          y <- getDtd i ;;
          match tget (t_elems (snd y)) key with
          | Some e =>
              t <- declType e ;;
              if t =? UndefinedElementType
              then setTables i (with_elems (tdel (t_elems (snd y)) key) (snd y))
              else hret tt
          | None => hret tt
          end
      | _ => hret tt
      end
  end ;;
  z <- getDtd dtd ;;
  decl <- match tget (t_elems (snd z)) key with
          | Some e =>
              t <- declType e ;;
              if negb (t =? UndefinedElementType) then hfail "redefinition of element"
              else hret e
          | None =>
              e <- alloc None (DElemDecl local prefix UndefinedElementType None) ;;
              setTables dtd (with_elems (tput (t_elems (snd z)) key e) (snd z)) ;;
              hret e
          end ;;
  k <- getc decl ;;
  match dat k with
  | DElemDecl nm pf _ _ =>
      setData decl (DElemDecl nm pf typ
        (match content with Some e => Some (copyElementContent e) | None => None end))
  | _ => hpan
  end ;;
  setOwner decl (owner c) ;;
  AddChild dtd decl ;;
  hret decl.

(* /repo/dtd.go:124-131 LookupElement, 133-136 RemoveElement, 168-171
   GetElementDesc, 138-145 LookupAttribute *)
Definition LookupElement (dtd : ptr) (name prefix : str) : HM (option ptr) :=
  x <- getDtd dtd ;; hret (tget (t_elems (snd x)) (elem_key name prefix)).
Definition RemoveElement (dtd : ptr) (name prefix : str) : HM unit :=
  x <- getDtd dtd ;; setTables dtd (with_elems (tdel (t_elems (snd x)) (elem_key name prefix)) (snd x)).
Definition GetElementDesc (dtd : ptr) (name : str) : HM (option ptr) :=
  x <- getDtd dtd ;; hret (tget (t_elems (snd x)) name).
(* the key of dtd.attributes: /repo/dtd.go:138-145, 149 *)
Definition attr_key (name prefix elem : str) : str := name ++ [58] ++ prefix ++ [58] ++ elem.
Definition LookupAttribute (dtd : ptr) (name prefix elem : str) : HM (option ptr) :=
  x <- getDtd dtd ;; hret (tget (t_attrs (snd x)) (attr_key name prefix elem)).
(* /repo/dtd.go:147-156 RegisterAttribute *)
Definition RegisterAttribute (dtd attr : ptr) : HM unit :=
  c <- getc attr ;;
  match dat c with
  | DAttrDecl elem name prefix _ _ _ _ =>
      x <- getDtd dtd ;;
      match tget (t_attrs (snd x)) (attr_key name prefix elem) with
      | Some _ => hfail "duplicate attribute declared"
      | None => setTables dtd (with_attrs (tput (t_attrs (snd x)) (attr_key name prefix elem) attr) (snd x))
      end
  | _ => hpan
  end.
(* /repo/parserctx.go:3665-3769 addAttributeDecl.  The errors of lines 3670-3675
   are overwritten, validateAttributeValueInternal always answers nil. *)
Definition addAttributeDecl (dtd : option ptr) (elem name prefix : str) (atype def : Z) (value : str)
           (enum : list str) : HM ptr :=
  match dtd with
  | None => hfail "dtd required"
  | Some dp =>
      if negb ((1 <=? atype) && (atype <=? 10)) then hfail "invalid attribute type"
      else
        c <- getc dp ;;
        match owner c with
        | None => hret tt
        | Some d =>
            x <- getDoc d ;;
            match x with
            | (_, _, _, Some i, ext) =>
                y <- getDtd i ;;
                if optr_eqb ext (Some dp) && (match t_attrs (snd y) with [] => true | _ => false end) then
                  o <- LookupAttribute dp name prefix elem ;;
                  match o with
                  | None => hfail "already defined in internal subset"
                  | Some _ => hret tt
                  end
                else hret tt
            | _ => hret tt
            end
        end ;;
        a <- alloc (owner c) (DAttrDecl elem name prefix atype def value enum) ;;
        RegisterAttribute dp a ;;
        hignore (AddChild dp a) ;;
        hret a
  end.

(* ---------- documents ---------- *)

(* /repo/document.go:12-26 CreateDocument, NewDocument *)
Definition NewDocument (version encoding : str) (standalone : Z) : HM ptr :=
  alloc None (DDoc version encoding standalone None None).
Definition CreateDocument : HM ptr := NewDocument (s_ "1.0") [] StandaloneImplicitNo.
(* /repo/document.go:221-237, 170-175, 177-181, 135 (newAttribute) *)
Definition CreateElement (d : option ptr) (name : str) : HM ptr := alloc d (DElem name None [] None).
Definition CreateText (d : option ptr) (b : str) : HM ptr := alloc d (DText b).
Definition CreateComment (d : option ptr) (b : str) : HM ptr := alloc d (DComment b).
Definition CreatePI (target pidata : str) : HM ptr := alloc None (DPI target pidata).

(* /repo/node.go:197-214 SetNamespace of an element *)
Definition SetNamespace (e : ptr) (prefix uri : str) (activate : bool) : HM unit :=
  c <- getc e ;;
  match dat c with
  | DElem nm ns defs props =>
      if activate then setData e (DElem nm (Some (prefix, uri)) defs props)
      else setData e (DElem nm ns (defs ++ [(prefix, uri)]) props)
  | _ => hpan
  end.

(* the loop of /repo/document.go:97-102 *)
Fixpoint firstElement (n : nat) (o : option ptr) : HM (option ptr) :=
  match o with
  | None => hret None
  | Some p =>
      match n with
      | O => hoof
      | S n' => c <- getc p ;;
                if typeOf (dat c) =? ElementNode then hret (Some p)
                else firstElement n' (l_next (lk c))
      end
  end.
(* /repo/document.go:86-110 SetDocumentElement of a non-nil node on a non-nil
   document.  The error of AddChild is dropped. *)
Definition SetDocumentElement (d root : ptr) : HM unit :=
  setPar root (Some d) ;;
  c <- getc d ;;
  old <- (fun h => firstElement (size h) (l_first (lk c)) h) ;;
  match old with
  | None => hignore (AddChild d root)
  | Some o => Replace o root
  end.

(* /repo/document.go:493-516 CreateCharRef *)
Definition refName (name : str) : str :=
  match name with
  | 38 :: t => if last t 38 =? 59 then removelast t else t
  | _ => name
  end.
Definition CreateCharRef (d : option ptr) (name : str) : HM ptr :=
  match name with
  | [] => hfail "empty name"
  | _ => alloc d (DRef (refName name))
  end.
(* /repo/document.go:112-133 CreateReference *)
Definition CreateReference (d : option ptr) (name : str) : HM ptr :=
  n <- CreateCharRef d name ;;
  e <- GetEntity d (refName name) ;;
  match e with
  | Some ent => setFirst n (Some ent) ;; setLast n (Some ent)
  | None => hret tt
  end ;;
  hret n.

(* /repo/document.go:450-457: every node of the chain gets the parent p; the
   loop of 152-159 also clears the last child of the last one *)
Fixpoint setParents (n : nat) (p : ptr) (clear : bool) (o : option ptr) : HM unit :=
  match o with
  | None => hret tt
  | Some q =>
      match n with
      | O => hoof
      | S n' =>
          setPar q (Some p) ;;
          c <- getc q ;;
          (match l_next (lk c) with
           | None => if clear then setLast q None else hret tt
           | Some _ => hret tt
           end) ;;
          setParents n' p clear (l_next (lk c))
      end
  end.

(* the digits of a character reference up to ';', /repo/document.go:373-385 *)
Fixpoint refDigits (acc : Z -> Z -> option Z) (v : Z) (l : list Z) : option (Z * list Z) :=
  match l with
  | [] => None
  | c :: t => if c =? 59 then Some (v, t)
              else match acc v c with
                   | Some v' => refDigits acc v' t
                   | None => None
                   end
  end.
(* the name of an entity reference up to ';', /repo/document.go:388-403 *)
Fixpoint upToSemi (l : list Z) : option (list Z * list Z) :=
  match l with
  | [] => None
  | c :: t => if c =? 59 then Some ([], t)
              else match upToSemi t with
                   | Some (a, b) => Some (c :: a, b)
                   | None => None
                   end
  end.
(* one more node at the end of the list being built: the pair is (ret, last) *)
Definition linkNode (rl : option ptr * option ptr) (node : ptr) : HM (option ptr * option ptr) :=
  match snd rl with
  | None => hret (Some node, Some node)
  | Some l => hignore (AddSibling l node) ;; hret (fst rl, Some node)
  end.
Definition flushText (d : option ptr) (buf : str) (rl : option ptr * option ptr) : HM (option ptr * option ptr) :=
  match buf with
  | [] => hret rl
  | _ => t <- CreateText d buf ;; linkNode rl t
  end.
(* /repo/document.go:322-491 stringToNodeList.  rs: the runes still to read;
   buf: the text not yet flushed; rl: the first and the last node so far; n:
   the fuel, one unit per turn of the loop and per recursive call. *)
Fixpoint nodeList (n : nat) (d : option ptr) (rs : list Z) (buf : str) (rl : option ptr * option ptr)
  {struct n} : HM (option ptr) :=
  match n with
  | O => hoof
  | S n' =>
      match rs with
      | [] => r <- flushText d buf rl ;; hret (fst r)
      | r :: rs1 =>
          if negb (r =? 38) then nodeList n' d rs1 (buf ++ encode_rune r) rl
          else
            match rs1 with
            | [] => hfail "EOF"
            | r1 :: rs2 =>
                if r1 =? 35 then
                  match rs2 with
                  | [] => hfail "EOF"
                  | r2 :: rs3 =>
                      match (if r2 =? 120 then refDigits accHex 0 rs3 else refDigits accDec 0 rs2) with
                      | None => hfail "invalid character reference"
                      | Some (v, rest) => nodeList n' d rest (if v =? 0 then buf else buf ++ encode_rune v) rl
                      end
                  end
                else
                  match upToSemi rs1 with
                  | None => hfail "entity was unterminated"
                  | Some (nm, rest) =>
                      e <- GetEntity d (utf8 nm) ;;
                      pre <- match e with
                             | Some ent =>
                                 c <- getc ent ;;
                                 match dat c with
                                 | DEntity _ t _ _ s _ => hret (if t =? 6 then Some s else None)
                                 | _ => hpan
                                 end
                             | None => hret None
                             end ;;
                      match pre with
                      | Some s => nodeList n' d rest (buf ++ s) rl
                      | None =>
                          rl1 <- flushText d buf rl ;;
                          node <- CreateReference d (utf8 nm) ;;
                          match e with
                          | Some ent =>
                              c <- getc ent ;;
                              match l_first (lk c) with
                              | None =>
                                  s <- Content n' node ;;
                                  kids <- nodeList n' d (runes_of s) [] (None, None) ;;
                                  setFirst ent kids ;;
                                  (fun h => setParents (size h) ent false kids h)
                              | Some _ => hret tt
                              end
                          | None => hret tt
                          end ;;
                          rl2 <- linkNode rl1 node ;;
                          nodeList n' d rest [] rl2
                      end
                  end
            end
      end
  end.
Definition stringToNodeList (n : nat) (d : option ptr) (value : str) : HM (option ptr) :=
  nodeList n d (runes_of value) [] (None, None).

(* /repo/document.go:135-162 CreateAttribute *)
Definition CreateAttribute (n : nat) (d : option ptr) (name value : str) : HM ptr :=
  a <- alloc None (DAttr name false) ;;
  match value with
  | [] => hret a
  | _ =>
      k <- stringToNodeList n d value ;;
      setFirst a k ;;
      (fun h => setParents (size h) a true k h) ;;
      hret a
  end.

(* the scan of /repo/element.go:110-117: the last attribute, or the error *)
Fixpoint lastAttr (n : nat) (name : str) (p : ptr) : HM ptr :=
  match n with
  | O => hoof
  | S n' =>
      c <- getc p ;;
      match dat c with
      | DAttr nm _ =>
          if str_eqb nm name then hfail "ErrDuplicateAttribute"
          else match l_next (lk c) with
               | None => hret p
               | Some q => lastAttr n' name q
               end
      | _ => hpan
      end
  end.
(* /repo/element.go:93-123 SetAttribute; n is the fuel of stringToNodeList *)
Definition SetAttribute (n : nat) (e : ptr) (name value : str) : HM unit :=
  c <- getc e ;;
  a <- CreateAttribute n (owner c) name value ;;
  k <- getc e ;;
  match dat k with
  | DElem nm ns defs props =>
      match props with
      | None => setData e (DElem nm ns defs (Some a))
      | Some p =>
          l <- (fun h => lastAttr (size h) name p h) ;;
          setNext l (Some a) ;;
          setPrev a (Some l)
      end
  | _ => hpan
  end.
(* /repo/element.go:125-137 Attributes *)
Fixpoint attrChain (h : heap) (n : nat) (o : option ptr) : outcome herr (list ptr) :=
  match o with
  | None => Ret []
  | Some p =>
      match n with
      | O => Oof
      | S n' =>
          match hget h p with
          | Some c =>
              match dat c with
              | DAttr _ _ => obind (attrChain h n' (l_next (lk c))) (fun r => Ret (p :: r))
              | _ => Pan
              end
          | None => Pan
          end
      end
  end.
Definition Attributes (h : heap) (e : ptr) : outcome herr (list ptr) :=
  match hget h e with
  | Some c => match dat c with DElem _ _ _ props => attrChain h (size h) props | _ => Pan end
  | None => Pan
  end.

(* /repo/document.go:183-219 CreateInternalSubset (with CreateDTD and newDTD);
   the error of AddChild is dropped *)
Definition CreateInternalSubset (d : ptr) (name ext sys : str) : HM ptr :=
  x <- getDoc d ;;
  match x with
  | (v, e, sa, Some _, xs) => hfail "document already has an internal subset"
  | (v, e, sa, None, xs) =>
      dtd <- alloc (Some d) (DDtd name ext sys notables) ;;
      setData d (DDoc v e sa (Some dtd) xs) ;;
      setPar dtd (Some d) ;;
      hignore (AddChild d dtd) ;;
      hret dtd
  end.

(* /repo/document.go:289-312 IsMixedElement; Fail is the error *)
Definition IsMixedElement (d : option ptr) (name : str) : HM bool :=
  p <- deref d ;;
  x <- getDoc p ;;
  match x with
  | (_, _, _, None, _) => hfail "element declaration not found"
  | (_, _, _, Some i, _) =>
      o <- GetElementDesc i name ;;
      match o with
      | None => hfail "element declaration not found"
      | Some e =>
          t <- declType e ;;
          if t =? UndefinedElementType then hfail "element declaration not found"
          else hret (negb (t =? ElementElementType))
      end
  end.

(* The serialiser of /repo/dump.go as the sequence of calls of Write that it
   makes on the io.Writer it is given, any of which may fail.  Dump.v has the
   same functions as functions from trees to texts.  io.WriteString calls
   WriteString or Write once; both are [write] here. *)
From Verif Require Import Base Utf8 Escape Scan Heap Dump.

(* Where /repo/dump.go:93-132 (escapeAttrValue) puts a replacement for a rune
   r of width w: None is the "continue" of line 121, Some is esc of line 126. *)
Definition attr_esc (r : Z) (w : nat) : option str :=
  if r =? 34 then Some esc_quot
  else if r =? 38 then Some esc_amp
  else if r =? 60 then Some esc_lt
  else if r =? 62 then Some esc_gt
  else if r =? 10 then Some esc_nl
  else if r =? 13 then Some esc_cr
  else if r =? 9 then Some esc_tab
  else if negb ((32 <=? r) && (r <? 128)) && (r <? 224) then Some (num_ref r)
  else if negb (isInCharacterRange r) || ((r =? 65533) && (w =? 1)%nat) then Some esc_fffd
  else None.
(* the same for /repo/dump.go:152-193 (escapeText) *)
Definition text_esc (nl : bool) (r : Z) (w : nat) : option str :=
  if r =? 38 then Some esc_amp
  else if r =? 60 then Some esc_lt
  else if r =? 62 then Some esc_gt
  else if r =? 10 then (if nl then Some esc_nl else None)
  else if r =? 13 then Some esc_cr
  else if negb ((r =? 9) || ((32 <=? r) && (r <? 128))) && (r <? 224) then Some (num_ref r)
  else if negb (isInCharacterRange r) || ((r =? 65533) && (w =? 1)%nat) then Some esc_fffd
  else None.

Section Out.
(* An io.Writer: from a state and the bytes of a call of Write to the next
   state, the number of bytes taken and whether an error is returned. *)
Variable W : Type.
Variable write : W -> str -> W * (nat * bool).

(* the writer, the bytes it has taken so far, and whether it has returned an
   error so far (the last two are for the statements: the program reads
   neither) *)
Record sink := Sink { s_w : W; s_out : str; s_failed : bool }.

(* what the functions of the serialiser compute *)
Definition OM (A : Type) := sink -> outcome herr A * sink.
Definition oret {A} (a : A) : OM A := fun s => (Ret a, s).
Definition ofail {A} (e : herr) : OM A := fun s => (Fail e, s).
Definition opan {A} : OM A := fun s => (Pan, s).
Definition ooof {A} : OM A := fun s => (Oof, s).
Definition obnd {A B} (m : OM A) (f : A -> OM B) : OM B := fun s =>
  match m s with
  | (Ret a, s') => f a s'
  | (Fail e, s') => (Fail e, s')
  | (Pan, s') => (Pan, s')
  | (Oof, s') => (Oof, s')
  end.
Notation "m >> k" := (obnd m (fun _ => k)) (at level 61, right associativity).

(* _, err := out.Write(b); the result says whether err is not nil *)
Definition put (b : str) : OM bool := fun s =>
  let '(w, (n, e)) := write (s_w s) b in
  (Ret e, Sink w (s_out s ++ firstn n b) (s_failed s || e)).
(* out.Write(b) or io.WriteString(out, b) as a statement: the error is dropped *)
Definition say (b : str) : OM unit := put b >> oret tt.
(* if _, err := w.Write(b); err != nil { return err } *)
Definition put_or (b : str) (k : OM bool) : OM bool :=
  obnd (put b) (fun e => if e then oret true else k).

(* /repo/dump.go:90-134, 151-194: the loop.  [raw] is s[last:i]; the result
   says whether an error is returned. *)
Fixpoint escape_loop (esc : Z -> nat -> option str) (l : list (Z * str)) (raw : str) : OM bool :=
  match l with
  | [] => put_or raw (oret false)
  | (r, b) :: l' =>
      match esc r (List.length b) with
      | None => escape_loop esc l' (raw ++ b)
      | Some x => put_or raw (put_or x (escape_loop esc l' []))
      end
  end.
(* /repo/dump.go:78-135 escapeAttrValue; debug output (lines 79-87) left out *)
Definition escapeAttrValueW (s : str) : OM bool := escape_loop attr_esc (chunks s) [].
(* /repo/dump.go:140-195 escapeText; debug output (lines 141-148) left out *)
Definition escapeTextW (s : str) (nl : bool) : OM bool := escape_loop (text_esc nl) (chunks s) [].

(* /repo/dump.go:41-49: the stretches between the double quotes, one call each *)
Fixpoint quoted_loop (s raw : str) : OM unit :=
  match s with
  | [] => match raw with [] => oret tt | _ => say raw end
  | c :: s' => if c =? 34 then say raw >> quoted_loop s' [] else quoted_loop s' (raw ++ [c])
  end.
(* /repo/dump.go:19-52 dumpQuotedString *)
Definition dumpQuotedStringW (s : str) : OM unit :=
  if negb (has_byte 34 s) then say [34] >> say s >> say [34]
  else if negb (has_byte 39 s) then say [39] >> say s >> say [39]
  else say [34] >> quoted_loop s [] >> say [34].

(* buf.WriteTo(out): one call of Write unless the buffer is empty,
   /repo/dump.go:404-427 *)
Definition flush (raw : str) : OM unit := match raw with [] => oret tt | _ => say raw end.
(* /repo/dump.go:404-427: buf is [raw]; buf.WriteTo makes one call of Write,
   its error is dropped and what it did not write is thrown away by Reset *)
Fixpoint content_loop (s raw : str) : OM unit :=
  match s with
  | [] => flush raw
  | c :: s' =>
      if c =? 34 then flush raw >> say (s_ "&quot;") >> content_loop s' []
      else if c =? 37 then flush raw >> say (s_ "&#x25;") >> content_loop s' []
      else content_loop s' (raw ++ [c])
  end.
(* /repo/dump.go:395-432 dumpEntityContent *)
Definition dumpEntityContentW (s : str) : OM unit :=
  if negb (has_byte 37 s) then dumpQuotedStringW s
  else say [34] >> content_loop s [] >> say [34].

(* /repo/dump.go:224-250 dumpDocContent *)
Definition dumpDocContentW (version encoding : str) (standalone : Z) : OM unit :=
  say (s_ "<?xml version=""") >>
  say ((match version with [] => s_ "1.0" | _ => version end) ++ s_ """") >>
  (match encoding with [] => oret tt | _ => say (s_ " encoding=""" ++ encoding ++ s_ """") end) >>
  (if standalone =? StandaloneExplicitNo then say (s_ " standalone=""no""")
   else if standalone =? StandaloneExplicitYes then say (s_ " standalone=""yes""") else oret tt) >>
  say (s_ "?>" ++ [10]).

(* /repo/dump.go:286-296 dumpEnumeration *)
Fixpoint dumpEnumerationW (l : list str) : OM unit :=
  match l with
  | [] => say (s_ ")")
  | [x] => say x >> say (s_ ")")
  | x :: r => say x >> say (s_ " | ") >> dumpEnumerationW r
  end.

(* "if n.prefix != """: /repo/dump.go:300-304, 324-328, 527-531 *)
Definition prefixedW (prefix name : str) : OM unit :=
  (match prefix with [] => oret tt | _ => say prefix >> say (s_ ":") end) >> say name.

(* /repo/dump.go:307-393 dumpElementContent of a non-nil content; a nil c1 or
   c2 of a sequence or choice panics *)
Fixpoint dumpElementContentW (e : econt) (glob : bool) : OM unit :=
  match e with
  | EC ct oc name prefix c1 c2 =>
      let sub (op : str) (isOr : bool) : OM unit :=
        match c1 with
        | None => opan
        | Some a =>
            dumpElementContentW a ((ec_type a =? ctOr) || (ec_type a =? ctSeq)) >>
            say op >>
            match c2 with
            | None => opan
            | Some b =>
                dumpElementContentW b
                  (if isOr then (ec_type b =? ctSeq) || ((ec_type b =? ctOr) && negb (ec_occur b =? ocOnce))
                   else (ec_type b =? ctOr) || ((ec_type b =? ctSeq) && negb (ec_occur b =? ocOnce)))
            end
        end in
      (if glob then say (s_ "(") else oret tt) >>
      (if ct =? ctPCDATA then say (s_ "#PCDATA")
       else if ct =? ctElement then prefixedW prefix name
       else if ct =? ctSeq then sub (s_ " , ") false
       else if ct =? ctOr then sub (s_ " | ") true
       else ofail "invalid ElementContent"%string) >>
      (if glob then say (s_ ")") else oret tt) >>
      (if oc =? ocOpt then say (s_ "?") else if oc =? ocMult then say (s_ "*")
       else if oc =? ocPlus then say (s_ "+") else oret tt)
  end.

(* /repo/dump.go:434-500 dumpEntityDecl; the results of dumpQuotedString and
   dumpEntityContent are dropped (they are always nil) *)
Definition dumpEntityDeclW (name : str) (typ : Z) (ext sys content orig : str) : OM unit :=
  let value := match orig with [] => dumpEntityContentW content | _ => dumpQuotedStringW orig end in
  if typ =? 1 then say (s_ "<!ENTITY ") >> say name >> say (s_ " ") >> value >> say (s_ ">" ++ [10])
  else if (typ =? 2) || (typ =? 3) then
    say (s_ "<!ENTITY ") >> say name >>
    (match ext with
     | [] => say (s_ " PUBLIC ") >> dumpQuotedStringW ext >> say (s_ " ") >> dumpQuotedStringW sys
     | _ => say (s_ " SYSTEM ") >> dumpQuotedStringW sys
     end) >>
    (if typ =? 3 then
       match content with
       | [] => oret tt
       | _ => say (s_ " NDATA ") >> (match orig with [] => say content | _ => say orig end)
       end
     else oret tt) >> say (s_ ">" ++ [10])
  else if typ =? 4 then say (s_ "<!ENTITY % ") >> say name >> say (s_ " ") >> value >> say (s_ ">" ++ [10])
  else if typ =? 5 then
    say (s_ "<!ENTITY % ") >> say name >>
    (match ext with
     | [] => say (s_ " SYSTEM ") >> dumpQuotedStringW sys
     | _ => say (s_ " PUBLIC ") >> dumpQuotedStringW ext >> say (s_ " ") >> dumpQuotedStringW sys
     end)
  else ofail "invalid entity type"%string.

(* /repo/dump.go:502-521 dumpElementDecl, 298-305 dumpElementDeclPrologue *)
Definition dumpElementDeclW (name prefix : str) (typ : Z) (content : option econt) : OM unit :=
  let pro := say (s_ "<!ELEMENT ") >> prefixedW prefix name in
  if typ =? EmptyElementType then pro >> say (s_ " EMPTY>" ++ [10])
  else if typ =? AnyElementType then pro >> say (s_ " ANY>" ++ [10])
  else if (typ =? MixedElementType) || (typ =? ElementElementType) then
    pro >> say (s_ " ") >>
    (match content with Some e => dumpElementContentW e true | None => oret tt end) >>
    say (s_ ">" ++ [10])
  else ofail "invalid element decl"%string.

(* /repo/dump.go:523-580 dumpAttributeDecl *)
Definition dumpAttributeDeclW (elem name prefix : str) (atype def : Z) (value : str) (enum : list str) : OM unit :=
  say (s_ "<!ATTLIST ") >> say elem >> say (s_ " ") >> prefixedW prefix name >>
  (if atype =? AttrCDATA then say (s_ " CDATA")
   else if atype =? AttrID then say (s_ " ID")
   else if atype =? AttrIDRef then say (s_ " IDREF")
   else if atype =? AttrIDRefs then say (s_ " IDREFS")
   else if atype =? AttrEntity then say (s_ " ENTITY")
   else if atype =? AttrNmtoken then say (s_ " NMTOKEN")
   else if atype =? AttrNmtokens then say (s_ " NMTOKENS")
   else if atype =? AttrEnumeration then say (s_ " (") >> dumpEnumerationW enum
   else if atype =? AttrNotation then say (s_ " NOTATION (") >> dumpEnumerationW enum
   else ofail "invalid AttributeDecl type"%string) >>
  (if def =? 1 then oret tt
   else if def =? 2 then say (s_ " #REQUIRED")
   else if def =? 3 then say (s_ " #IMPLIED")
   else if def =? 4 then say (s_ " #FIXED")
   else ofail "invalid AttributeDecl default value type"%string) >>
  (match value with [] => oret tt | _ => say (s_ " ") >> dumpQuotedStringW value end) >>
  say (s_ ">" ++ [10]).

(* /repo/dump.go:591-608 dumpNs *)
Definition dumpNsW (ns : nspair) : OM unit :=
  match snd ns with
  | [] => oret tt
  | href =>
      say (s_ " ") >>
      (match fst ns with [] => say (s_ "xmlns") | p => say (s_ "xmlns:") >> say p end) >>
      say (s_ "=") >> dumpQuotedStringW href
  end.
(* /repo/dump.go:582-589 dumpNsList *)
Fixpoint dumpNsListW (l : list nspair) : OM unit :=
  match l with
  | [] => oret tt
  | ns :: l' => dumpNsW ns >> dumpNsListW l'
  end.

(* /repo/dump.go:252-268, the part before the declarations *)
Definition dumpDTDHeadW (name ext sys : str) : OM unit :=
  say (s_ "<!DOCTYPE ") >> say name >> say (s_ " ") >>
  (match ext with
   | [] => match sys with [] => oret tt | _ => say (s_ " SYSTEM ") >> say sys >> say (s_ " ") end
   | _ => say (s_ " PUBLIC ") >> say ext >> say (s_ " ")
   end).

(* a call whose error is dropped: lines 643, 704, 706 *)
Definition dropped {A} (m : OM A) : OM unit := fun s =>
  match m s with
  | (Ret _, s') => (Ret tt, s')
  | (Fail _, s') => (Ret tt, s')
  | (Pan, s') => (Pan, s')
  | (Oof, s') => (Oof, s')
  end.

(* /repo/dump.go:610-738 DumpNode, 252-284 dumpDTD.  n is the fuel. *)
Variable h : heap.
Fixpoint dumpNodeW (n : nat) (p : ptr) {struct n} : OM unit :=
  match n with
  | O => ooof
  | S n' =>
      match hget h p with
      | None => opan
      | Some c =>
          match dat c with
          | DDoc v e s _ _ => dumpDocContentW v e s
          | DDtd name ext sys t =>
              dumpDTDHeadW name ext sys >>
              (if no_decls t then say (s_ ">")
               else say (s_ "[" ++ [10]) >> dumpNodesW n' (l_first (lk c)) >> say (s_ "]>"))
          | DComment s => say (s_ "<!--") >> say s >> say (s_ "-->")
          | DRef name => say (s_ "&") >> say name >> say (s_ ";")
          | DText s => if str_eqb s XMLTextNoEnc then opan else dropped (escapeTextW s false)
          | DElemDecl name prefix typ content => dumpElementDeclW name prefix typ content
          | DAttrDecl elem name prefix atype def value enum =>
              dumpAttributeDeclW elem name prefix atype def value enum
          | DEntity name typ ext sys content orig => dumpEntityDeclW name typ ext sys content orig
          | DElem name ns defs props =>
              let full := nameOf (dat c) in
              say (s_ "<") >> say full >> dumpNsListW defs >> dumpAttrsW n' props >>
              match l_first (lk c) with
              | None => say (s_ "/>")
              | Some k =>
                  say (s_ ">") >> dumpNodesW n' (Some k) >> say (s_ "</") >> say full >> say (s_ ">")
              end
          | DPI _ _ | DAttr _ _ =>
              (* lines 672-738 for a node that is not an *Element *)
              say (s_ "<") >> say (nameOf (dat c)) >> say (s_ ">") >>
              dumpNodesW n' (l_first (lk c)) >>
              say (s_ "</") >> say (nameOf (dat c)) >> say (s_ ">")
          end
      end
  end
with dumpNodesW (n : nat) (o : option ptr) {struct n} : OM unit :=
  match o with
  | None => oret tt
  | Some p =>
      match n with
      | O => ooof
      | S n' =>
          dumpNodeW n' p >>
          match hget h p with
          | None => opan
          | Some c => dumpNodesW n' (l_next (lk c))
          end
      end
  end
(* lines 696-715 *)
with dumpAttrsW (n : nat) (o : option ptr) {struct n} : OM unit :=
  match o with
  | None => oret tt
  | Some a =>
      match n with
      | O => ooof
      | S n' =>
          match hget h a with
          | None => opan
          | Some c =>
              match dat c with
              | DAttr name _ =>
                  say (s_ " " ++ name ++ s_ "=""") >> dumpAttrKidsW n' (l_first (lk c)) >> say (s_ """") >>
                  dumpAttrsW n' (l_next (lk c))
              | _ => opan
              end
          end
      end
  end
(* lines 700-707; the errors of escapeAttrValue and DumpNode are dropped *)
with dumpAttrKidsW (n : nat) (o : option ptr) {struct n} : OM unit :=
  match o with
  | None => oret tt
  | Some p =>
      match n with
      | O => ooof
      | S n' =>
          match hget h p with
          | None => opan
          | Some c =>
              (match dat c with
               | DText s => dropped (escapeAttrValueW s)
               | _ => dropped (dumpNodeW n' p)
               end) >>
              dumpAttrKidsW n' (l_next (lk c))
          end
      end
  end.

(* the loop of DumpDoc, /repo/dump.go:215-220 *)
Fixpoint dumpLinesW (n : nat) (o : option ptr) {struct n} : OM unit :=
  match o with
  | None => oret tt
  | Some p =>
      match n with
      | O => ooof
      | S n' =>
          dumpNodeW n' p >> say [10] >>
          match hget h p with
          | None => opan
          | Some c => dumpLinesW n' (l_next (lk c))
          end
      end
  end.
(* /repo/dump.go:205-222 DumpDoc *)
Definition dumpDocW (n : nat) (d : ptr) : OM unit :=
  match n with
  | O => ooof
  | S n' =>
      dumpNodeW n' d >>
      match hget h d with
      | None => opan
      | Some c => dumpLinesW n' (l_first (lk c))
      end
  end.

(* /repo/document.go:36-38 (d *Document) XML and /repo/element.go:63-65
   (n *Element) XML with a fresh writer in state w *)
Definition XML (n : nat) (d : ptr) (w : W) : outcome herr unit * sink := dumpDocW n d (Sink w [] false).
Definition nodeXML (n : nat) (p : ptr) (w : W) : outcome herr unit * sink := dumpNodeW n p (Sink w [] false).
End Out.
Arguments Sink {W} _ _ _.
Arguments s_w {W} _.
Arguments s_out {W} _.
Arguments s_failed {W} _.

(* bytes.Buffer takes everything and never fails *)
Definition buffer (w : unit) (b : str) : unit * (nat * bool) := (w, (List.length b, false)).
(* /repo/document.go:28-34 XMLString, /repo/element.go:55-61 *)
Definition XMLString (h : heap) (n : nat) (d : ptr) : outcome herr str :=
  match XML unit buffer h n d tt with
  | (Ret _, s) => Ret (s_out s)
  | (Fail e, _) => Fail e
  | (Pan, _) => Pan
  | (Oof, _) => Oof
  end.

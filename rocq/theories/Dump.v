(* The serialiser: /repo/dump.go:197-738 (the escaping functions of lines
   19-195 and 395-432 are in Escape.v).  The result is what has been written;
   write errors of the io.Writer are not modelled here, and the output of a
   call that ends in an error or a panic is not part of the result.
   DumpWrite.v has the same code as a sequence of calls of Write that may
   fail; DumpWriteProofs.v shows that the two agree. *)
From Verif Require Import Base Utf8 Escape Scan Heap.

(* /repo/dump.go:224-250 dumpDocContent *)
Definition dumpDocContent (version encoding : str) (standalone : Z) : str :=
  s_ "<?xml version=""" ++ (match version with [] => s_ "1.0" | _ => version end) ++ s_ """" ++
  (match encoding with [] => [] | _ => s_ " encoding=""" ++ encoding ++ s_ """" end) ++
  (if standalone =? StandaloneExplicitNo then s_ " standalone=""no"""
   else if standalone =? StandaloneExplicitYes then s_ " standalone=""yes""" else []) ++
  s_ "?>" ++ [10].

(* /repo/dump.go:286-296 dumpEnumeration *)
Fixpoint dumpEnumeration (l : list str) : str :=
  match l with
  | [] => s_ ")"
  | [x] => x ++ s_ ")"
  | x :: r => x ++ s_ " | " ++ dumpEnumeration r
  end.

(* the switch on coccur, /repo/dump.go:381-390 *)
Definition occurSuffix (oc : Z) : str :=
  if oc =? ocOpt then s_ "?" else if oc =? ocMult then s_ "*" else if oc =? ocPlus then s_ "+" else [].
(* the field ctype, /repo/interface.go:300 *)
Definition ec_type (e : econt) : Z := match e with EC ct _ _ _ _ _ => ct end.
(* /repo/dump.go:307-393 dumpElementContent of a non-nil content; a nil c1 or
   c2 of a sequence or choice panics *)
Fixpoint dumpElementContent (e : econt) (glob : bool) : outcome herr str :=
  match e with
  | EC ct oc name prefix c1 c2 =>
      let sub (op : str) (isOr : bool) : outcome herr str :=
        match c1 with
        | None => Pan
        | Some a =>
            obind (dumpElementContent a ((ec_type a =? ctOr) || (ec_type a =? ctSeq))) (fun x =>
            match c2 with
            | None => Pan
            | Some b =>
                obind (dumpElementContent b
                         (if isOr then (ec_type b =? ctSeq) || ((ec_type b =? ctOr) && negb (ec_occur b =? ocOnce))
                          else (ec_type b =? ctOr) || ((ec_type b =? ctSeq) && negb (ec_occur b =? ocOnce)))) (fun y =>
                Ret (x ++ op ++ y))
            end)
        end in
      obind (if ct =? ctPCDATA then Ret (s_ "#PCDATA")
             else if ct =? ctElement then Ret (prefixed prefix name)
             else if ct =? ctSeq then sub (s_ " , ") false
             else if ct =? ctOr then sub (s_ " | ") true
             else Fail "invalid ElementContent"%string) (fun body =>
      Ret ((if glob then s_ "(" else []) ++ body ++ (if glob then s_ ")" else []) ++ occurSuffix oc))
  end.

(* /repo/dump.go:434-500 dumpEntityDecl.  Lines 453-461 test externalID == ""
   where 487-495 test !=; line 495 writes no closing ">". *)
Definition dumpEntityDecl (name : str) (typ : Z) (ext sys content orig : str) : outcome herr str :=
  let value := match orig with [] => dumpEntityContent content | _ => dumpQuotedString orig end in
  if typ =? 1 then Ret (s_ "<!ENTITY " ++ name ++ s_ " " ++ value ++ s_ ">" ++ [10])
  else if (typ =? 2) || (typ =? 3) then
    Ret (s_ "<!ENTITY " ++ name ++
         (match ext with
          | [] => s_ " PUBLIC " ++ dumpQuotedString ext ++ s_ " " ++ dumpQuotedString sys
          | _ => s_ " SYSTEM " ++ dumpQuotedString sys
          end) ++
         (if typ =? 3 then
            match content with
            | [] => []
            | _ => s_ " NDATA " ++ (match orig with [] => content | _ => orig end)
            end
          else []) ++ s_ ">" ++ [10])
  else if typ =? 4 then Ret (s_ "<!ENTITY % " ++ name ++ s_ " " ++ value ++ s_ ">" ++ [10])
  else if typ =? 5 then
    Ret (s_ "<!ENTITY % " ++ name ++
         (match ext with
          | [] => s_ " SYSTEM " ++ dumpQuotedString sys
          | _ => s_ " PUBLIC " ++ dumpQuotedString ext ++ s_ " " ++ dumpQuotedString sys
          end))
  else Fail "invalid entity type"%string.

(* /repo/dump.go:502-521 dumpElementDecl, 298-305 dumpElementDeclPrologue *)
Definition dumpElementDecl (name prefix : str) (typ : Z) (content : option econt) : outcome herr str :=
  let pro := s_ "<!ELEMENT " ++ prefixed prefix name in
  if typ =? EmptyElementType then Ret (pro ++ s_ " EMPTY>" ++ [10])
  else if typ =? AnyElementType then Ret (pro ++ s_ " ANY>" ++ [10])
  else if (typ =? MixedElementType) || (typ =? ElementElementType) then
    obind (match content with Some e => dumpElementContent e true | None => Ret [] end) (fun s =>
    Ret (pro ++ s_ " " ++ s ++ s_ ">" ++ [10]))
  else Fail "invalid element decl"%string.

(* /repo/dump.go:523-580 dumpAttributeDecl; AttrEntities is missing from the switch *)
Definition dumpAttributeDecl (elem name prefix : str) (atype def : Z) (value : str) (enum : list str)
  : outcome herr str :=
  obind (if atype =? AttrCDATA then Ret (s_ " CDATA")
         else if atype =? AttrID then Ret (s_ " ID")
         else if atype =? AttrIDRef then Ret (s_ " IDREF")
         else if atype =? AttrIDRefs then Ret (s_ " IDREFS")
         else if atype =? AttrEntity then Ret (s_ " ENTITY")
         else if atype =? AttrNmtoken then Ret (s_ " NMTOKEN")
         else if atype =? AttrNmtokens then Ret (s_ " NMTOKENS")
         else if atype =? AttrEnumeration then Ret (s_ " (" ++ dumpEnumeration enum)
         else if atype =? AttrNotation then Ret (s_ " NOTATION (" ++ dumpEnumeration enum)
         else Fail "invalid AttributeDecl type"%string) (fun t =>
  obind (if def =? 1 then Ret []
         else if def =? 2 then Ret (s_ " #REQUIRED")
         else if def =? 3 then Ret (s_ " #IMPLIED")
         else if def =? 4 then Ret (s_ " #FIXED")
         else Fail "invalid AttributeDecl default value type"%string) (fun d =>
  Ret (s_ "<!ATTLIST " ++ elem ++ s_ " " ++ prefixed prefix name ++ t ++ d ++
       (match value with [] => [] | _ => s_ " " ++ dumpQuotedString value end) ++ s_ ">" ++ [10]))).

(* /repo/dump.go:591-608 dumpNs, 582-589 dumpNsList *)
Definition dumpNs (ns : nspair) : str :=
  match snd ns with
  | [] => []
  | href => s_ " " ++ (match fst ns with [] => s_ "xmlns" | p => s_ "xmlns:" ++ p end) ++ s_ "=" ++ dumpQuotedString href
  end.

(* Line 640: a text node whose content is the marker of text that must not be
   escaped, /repo/helium.go XMLTextNoEnc *)
Definition XMLTextNoEnc : str := s_ "textnoenc".

(* /repo/dump.go:252-267, the part of dumpDTD before the declarations *)
Definition dumpDTDHead (name ext sys : str) : str :=
  s_ "<!DOCTYPE " ++ name ++ s_ " " ++
  (match ext with
   | [] => match sys with [] => [] | _ => s_ " SYSTEM " ++ sys ++ s_ " " end
   | _ => s_ " PUBLIC " ++ ext ++ s_ " "
   end).
(* the test of /repo/dump.go:268-272 that the DTD declares nothing *)
Definition no_decls (t : tables) : bool :=
  match t_ents t, t_elems t, t_pents t, t_attrs t with
  | [], [], [], [] => true
  | _, _, _, _ => false
  end.

(* /repo/dump.go:610-738 DumpNode, 252-284 dumpDTD.  n is the fuel. *)
Section Dump.
Variable h : heap.
Fixpoint dumpNode (n : nat) (p : ptr) {struct n} : outcome herr str :=
  match n with
  | O => Oof
  | S n' =>
      match hget h p with
      | None => Pan
      | Some c =>
          match dat c with
          | DDoc v e s _ _ => Ret (dumpDocContent v e s)
          | DDtd name ext sys t =>
              if no_decls t then Ret (dumpDTDHead name ext sys ++ s_ ">")
              else obind (dumpNodes n' (l_first (lk c))) (fun s =>
                   Ret (dumpDTDHead name ext sys ++ s_ "[" ++ [10] ++ s ++ s_ "]>"))
          | DComment s => Ret (s_ "<!--" ++ s ++ s_ "-->")
          | DRef name => Ret (s_ "&" ++ name ++ s_ ";")
          | DText s => if str_eqb s XMLTextNoEnc then Pan else Ret (escapeText s false)
          | DElemDecl name prefix typ content => dumpElementDecl name prefix typ content
          | DAttrDecl elem name prefix atype def value enum =>
              dumpAttributeDecl elem name prefix atype def value enum
          | DEntity name typ ext sys content orig => dumpEntityDecl name typ ext sys content orig
          | DElem name ns defs props =>
              let full := nameOf (dat c) in
              obind (dumpAttrs n' props) (fun a =>
              let head := s_ "<" ++ full ++ flat_map dumpNs defs ++ a in
              match l_first (lk c) with
              | None => Ret (head ++ s_ "/>")
              | Some k =>
                  obind (dumpNodes n' (Some k)) (fun s =>
                  Ret (head ++ s_ ">" ++ s ++ s_ "</" ++ full ++ s_ ">"))
              end)
          | DPI _ _ | DAttr _ _ =>
              (* lines 672-738 for a node that is not an *Element *)
              obind (dumpNodes n' (l_first (lk c))) (fun s =>
              Ret (s_ "<" ++ nameOf (dat c) ++ s_ ">" ++ s ++ s_ "</" ++ nameOf (dat c) ++ s_ ">"))
          end
      end
  end
with dumpNodes (n : nat) (o : option ptr) {struct n} : outcome herr str :=
  match o with
  | None => Ret []
  | Some p =>
      match n with
      | O => Oof
      | S n' =>
          obind (dumpNode n' p) (fun s =>
          match hget h p with
          | None => Pan
          | Some c => obind (dumpNodes n' (l_next (lk c))) (fun r => Ret (s ++ r))
          end)
      end
  end
(* lines 696-715 *)
with dumpAttrs (n : nat) (o : option ptr) {struct n} : outcome herr str :=
  match o with
  | None => Ret []
  | Some a =>
      match n with
      | O => Oof
      | S n' =>
          match hget h a with
          | None => Pan
          | Some c =>
              match dat c with
              | DAttr name _ =>
                  obind (dumpAttrKids n' (l_first (lk c))) (fun v =>
                  obind (dumpAttrs n' (l_next (lk c))) (fun r =>
                  Ret (s_ " " ++ name ++ s_ "=""" ++ v ++ s_ """" ++ r)))
              | _ => Pan
              end
          end
      end
  end
(* lines 700-707; the error of DumpNode is dropped (with what it wrote) *)
with dumpAttrKids (n : nat) (o : option ptr) {struct n} : outcome herr str :=
  match o with
  | None => Ret []
  | Some p =>
      match n with
      | O => Oof
      | S n' =>
          match hget h p with
          | None => Pan
          | Some c =>
              obind (match dat c with
                     | DText s => Ret (escapeAttrValue s)
                     | _ => match dumpNode n' p with Fail _ => Ret [] | r => r end
                     end) (fun s =>
              obind (dumpAttrKids n' (l_next (lk c))) (fun r => Ret (s ++ r)))
          end
      end
  end.

(* the loop of DumpDoc: every child is followed by a line feed *)
Fixpoint dumpLines (n : nat) (o : option ptr) {struct n} : outcome herr str :=
  match o with
  | None => Ret []
  | Some p =>
      match n with
      | O => Oof
      | S n' =>
          obind (dumpNode n' p) (fun s =>
          match hget h p with
          | None => Pan
          | Some c => obind (dumpLines n' (l_next (lk c))) (fun r => Ret (s ++ [10] ++ r))
          end)
      end
  end.
(* /repo/dump.go:205-222 DumpDoc *)
Definition dumpDoc (n : nat) (d : ptr) : outcome herr str :=
  match n with
  | O => Oof
  | S n' =>
      obind (dumpNode n' d) (fun s =>
      match hget h d with
      | None => Pan
      | Some c => obind (dumpLines n' (l_first (lk c))) (fun r => Ret (s ++ r))
      end)
  end.
End Dump.

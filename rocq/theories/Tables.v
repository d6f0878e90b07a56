(* The generated String methods: /repo/element.go:11-21 (ElementType) and
   /repo/parserctx.go:38-48 (parserState). *)
From Verif Require Import Base.

(* /repo/element.go:11 _ElementType_name *)
Definition ElementType_name : str := s_ "ElementNodeAttributeNodeTextNodeCDATASectionNodeEntityRefNodeEntityNodeProcessingInstructionNodeCommentNodeDocumentNodeDocumentTypeNodeDocumentFragNodeNotationNodeHTMLDocumentNodeDTDNodeElementDeclNodeAttributeDeclNodeEntityDeclNodeNamespaceDeclNodeXIncludeStartNodeXIncludeEndNodeNamespaceNode".

(* /repo/element.go:13 _ElementType_index *)
Definition ElementType_index : list Z :=
  [0; 11; 24; 32; 48; 61; 71; 96; 107; 119; 135; 151; 163; 179; 186; 201; 218; 232; 249; 266; 281; 294].

(* /repo/parserctx.go:38 _parserState_name *)
Definition parserState_name : str := s_ "psEOFpsStartpsPIpsContentpsProloguepsEpiloguepsCDATApsDTDpsEntityDeclpsAttributeValuepsCommentpsStartTagpsEndTagpsSystemLiteralpsPublicLiteralpsEntityValuepsIgnorepsMisc".
(* /repo/parserctx.go:40 _parserState_index *)
Definition parserState_index : list Z :=
  [0; 5; 12; 16; 25; 35; 45; 52; 57; 69; 85; 94; 104; 112; 127; 142; 155; 163; 169].

(* s[i:j] of a Go string: panics unless 0 <= i <= j <= len(s) *)
Definition substr (s : str) (i j : Z) : outcome unit str :=
  if (0 <=? i) && (i <=? j) && (j <=? Z.of_nat (List.length s))
  then Ret (firstn (Z.to_nat (j - i)) (skipn (Z.to_nat i) s))
  else Pan.

(* fmt.Sprintf("%d", i) *)
Fixpoint dec_digits_fuel (n : nat) (i : Z) : str :=
  match n with
  | O => []
  | S n' => if i <? 10 then [48 + i] else dec_digits_fuel n' (i / 10) ++ [48 + i mod 10]
  end.
Definition fmt_d (i : Z) : str :=
  if i <? 0 then 45 :: dec_digits_fuel 20 (- i) else dec_digits_fuel 20 i.

(* /repo/element.go:15-21; Go's int wraps at 64 bits, i-1 underflow is not
   modelled (Z is unbounded). *)
Definition ElementType_String (i0 : Z) : outcome unit str :=
  let i := i0 - 1 in
  if (i <? 0) || (Z.of_nat (List.length ElementType_index) - 1 <=? i)
  then Ret (s_ "ElementType(" ++ fmt_d (i + 1) ++ s_ ")")
  else substr ElementType_name (nth (Z.to_nat i) ElementType_index 0) (nth (Z.to_nat (i + 1)) ElementType_index 0).

(* /repo/parserctx.go:42-48 *)
Definition parserState_String (i0 : Z) : outcome unit str :=
  let i := i0 - -1 in
  if (i <? 0) || (Z.of_nat (List.length parserState_index) - 1 <=? i)
  then Ret (s_ "parserState(" ++ fmt_d (i + -1) ++ s_ ")")
  else substr parserState_name (nth (Z.to_nat i) parserState_index 0) (nth (Z.to_nat (i + 1)) parserState_index 0).

(* /repo/interface.go:185-209: the constants ElementNode = iota + 1 .. *)
Definition ElementType_consts : list (Z * string) :=
  [(1, "ElementNode"); (2, "AttributeNode"); (3, "TextNode"); (4, "CDATASectionNode");
   (5, "EntityRefNode"); (6, "EntityNode"); (7, "ProcessingInstructionNode"); (8, "CommentNode");
   (9, "DocumentNode"); (10, "DocumentTypeNode"); (11, "DocumentFragNode"); (12, "NotationNode");
   (13, "HTMLDocumentNode"); (14, "DTDNode"); (15, "ElementDeclNode"); (16, "AttributeDeclNode");
   (17, "EntityDeclNode"); (18, "NamespaceDeclNode"); (19, "XIncludeStartNode");
   (20, "XIncludeEndNode"); (21, "NamespaceNode")]%string.
(* /repo/parser_interface.go:12-31: psEOF = iota - 1 .. *)
Definition parserState_consts : list (Z * string) :=
  [(-1, "psEOF"); (0, "psStart"); (1, "psPI"); (2, "psContent"); (3, "psPrologue");
   (4, "psEpilogue"); (5, "psCDATA"); (6, "psDTD"); (7, "psEntityDecl"); (8, "psAttributeValue");
   (9, "psComment"); (10, "psStartTag"); (11, "psEndTag"); (12, "psSystemLiteral");
   (13, "psPublicLiteral"); (14, "psEntityValue"); (15, "psIgnore"); (16, "psMisc")]%string.

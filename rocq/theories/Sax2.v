(* /repo/sax/sax2.go: the callback-based handler.  Generated by a script from
   the Go text, method by method. *)
From Verif Require Import Base.

Section Sax2.
(* The values passed around (context, strings, byte slices, integers, ...) and
   Go's error values are opaque; [VSlice] is a Go slice of values, needed for
   the variadic Error callback. *)
Variable V : Type.
Inductive value := VAtom (v : V) | VSlice (vs : list value).
Variable error : Type.
Variable unspecified : error.          (* ErrHandlerUnspecified, sax2.go:10 *)
Variable W : Type.                     (* whatever the callbacks act upon *)

(* The zero result beside the error: none, nil entity/input, or false. *)
Inductive zero_result := ZNone | ZNil | ZFalse.
Inductive result := ROf (r : option value) (e : option error) | RZero (z : zero_result) (e : error).

(* a callback: receives the context and the arguments *)
Definition callback := W -> value -> list value -> W * result.

(* /repo/sax/sax2.go:43-69 type SAX2 struct *)
Record SAX2 := {
  AttributeDeclHandler : option callback;
  CDataBlockHandler : option callback;
  CharactersHandler : option callback;
  CommentHandler : option callback;
  ElementDeclHandler : option callback;
  EndDocumentHandler : option callback;
  EndElementNSHandler : option callback;
  EntityDeclHandler : option callback;
  ErrorHandler : option callback;
  ExternalSubsetHandler : option callback;
  GetEntityHandler : option callback;
  GetParameterEntityHandler : option callback;
  HasExternalSubsetHandler : option callback;
  HasInternalSubsetHandler : option callback;
  IgnorableWhitespaceHandler : option callback;
  InternalSubsetHandler : option callback;
  IsStandaloneHandler : option callback;
  NotationDeclHandler : option callback;
  ProcessingInstructionHandler : option callback;
  ReferenceHandler : option callback;
  ResolveEntityHandler : option callback;
  SetDocumentLocatorHandler : option callback;
  StartDocumentHandler : option callback;
  StartElementNSHandler : option callback;
  UnparsedEntityDeclHandler : option callback
}.

Definition call (h : option callback) (z : zero_result) (w : W) (ctx : value) (args : list value) : W * result :=
  match h with
  | Some f => f w ctx args
  | None => (w, RZero z unspecified)
  end.

(* /repo/sax/sax2.go:77-82 *)
Definition SAX2_AttributeDecl (s : SAX2) (w : W) (ctx : value) (elem fullname typ def defaultValue tree : value) : W * result :=
  call (AttributeDeclHandler s) ZNone w ctx [elem; fullname; typ; def; defaultValue; tree].

(* /repo/sax/sax2.go:84-89 *)
Definition SAX2_CDataBlock (s : SAX2) (w : W) (ctx : value) (value : value) : W * result :=
  call (CDataBlockHandler s) ZNone w ctx [value].

(* /repo/sax/sax2.go:91-96 *)
Definition SAX2_Characters (s : SAX2) (w : W) (ctx : value) (ch : value) : W * result :=
  call (CharactersHandler s) ZNone w ctx [ch].

(* /repo/sax/sax2.go:98-103 *)
Definition SAX2_Comment (s : SAX2) (w : W) (ctx : value) (value : value) : W * result :=
  call (CommentHandler s) ZNone w ctx [value].

(* /repo/sax/sax2.go:105-110 *)
Definition SAX2_ElementDecl (s : SAX2) (w : W) (ctx : value) (name typ content : value) : W * result :=
  call (ElementDeclHandler s) ZNone w ctx [name; typ; content].

(* /repo/sax/sax2.go:112-117 *)
Definition SAX2_EndDocument (s : SAX2) (w : W) (ctx : value) : W * result :=
  call (EndDocumentHandler s) ZNone w ctx [].

(* /repo/sax/sax2.go:119-124 *)
Definition SAX2_EndElementNS (s : SAX2) (w : W) (ctx : value) (localname prefix uri : value) : W * result :=
  call (EndElementNSHandler s) ZNone w ctx [localname; prefix; uri].

(* /repo/sax/sax2.go:126-131 *)
Definition SAX2_EntityDecl (s : SAX2) (w : W) (ctx : value) (name typ publicID systemID content : value) : W * result :=
  call (EntityDeclHandler s) ZNone w ctx [name; typ; publicID; systemID; content].

(* /repo/sax/sax2.go:133-138 *)
(* The call is h(ctx, message, args), not args...: the callback's variadic
   parameter receives one value, the slice of all arguments. *)
Definition SAX2_Error (s : SAX2) (w : W) (ctx : value) (message : value) (args : list value) : W * result :=
  call (ErrorHandler s) ZNone w ctx ([message] ++ [VSlice args]).

(* /repo/sax/sax2.go:140-145 *)
Definition SAX2_ExternalSubset (s : SAX2) (w : W) (ctx : value) (name externalID systemID : value) : W * result :=
  call (ExternalSubsetHandler s) ZNone w ctx [name; externalID; systemID].

(* /repo/sax/sax2.go:147-152 *)
Definition SAX2_GetEntity (s : SAX2) (w : W) (ctx : value) (name : value) : W * result :=
  call (GetEntityHandler s) ZNil w ctx [name].

(* /repo/sax/sax2.go:154-159 *)
Definition SAX2_GetParameterEntity (s : SAX2) (w : W) (ctx : value) (name : value) : W * result :=
  call (GetParameterEntityHandler s) ZNil w ctx [name].

(* /repo/sax/sax2.go:161-166 *)
Definition SAX2_HasExternalSubset (s : SAX2) (w : W) (ctx : value) : W * result :=
  call (HasExternalSubsetHandler s) ZFalse w ctx [].

(* /repo/sax/sax2.go:168-173 *)
Definition SAX2_HasInternalSubset (s : SAX2) (w : W) (ctx : value) : W * result :=
  call (HasInternalSubsetHandler s) ZFalse w ctx [].

(* /repo/sax/sax2.go:175-180 *)
Definition SAX2_IgnorableWhitespace (s : SAX2) (w : W) (ctx : value) (ch : value) : W * result :=
  call (IgnorableWhitespaceHandler s) ZNone w ctx [ch].

(* /repo/sax/sax2.go:182-187 *)
Definition SAX2_InternalSubset (s : SAX2) (w : W) (ctx : value) (name externalID systemID : value) : W * result :=
  call (InternalSubsetHandler s) ZNone w ctx [name; externalID; systemID].

(* /repo/sax/sax2.go:189-194 *)
Definition SAX2_IsStandalone (s : SAX2) (w : W) (ctx : value) : W * result :=
  call (IsStandaloneHandler s) ZFalse w ctx [].

(* /repo/sax/sax2.go:196-201 *)
Definition SAX2_NotationDecl (s : SAX2) (w : W) (ctx : value) (name publicID systemID : value) : W * result :=
  call (NotationDeclHandler s) ZNone w ctx [name; publicID; systemID].

(* /repo/sax/sax2.go:203-208 *)
Definition SAX2_ProcessingInstruction (s : SAX2) (w : W) (ctx : value) (target data : value) : W * result :=
  call (ProcessingInstructionHandler s) ZNone w ctx [target; data].

(* /repo/sax/sax2.go:210-215 *)
Definition SAX2_Reference (s : SAX2) (w : W) (ctx : value) (name : value) : W * result :=
  call (ReferenceHandler s) ZNone w ctx [name].

(* /repo/sax/sax2.go:217-222 *)
Definition SAX2_ResolveEntity (s : SAX2) (w : W) (ctx : value) (publicID systemID : value) : W * result :=
  call (ResolveEntityHandler s) ZNil w ctx [publicID; systemID].

(* /repo/sax/sax2.go:224-229 *)
Definition SAX2_SetDocumentLocator (s : SAX2) (w : W) (ctx : value) (locator : value) : W * result :=
  call (SetDocumentLocatorHandler s) ZNone w ctx [locator].

(* /repo/sax/sax2.go:231-236 *)
Definition SAX2_StartDocument (s : SAX2) (w : W) (ctx : value) : W * result :=
  call (StartDocumentHandler s) ZNone w ctx [].

(* /repo/sax/sax2.go:238-243 *)
Definition SAX2_StartElementNS (s : SAX2) (w : W) (ctx : value) (localname prefix uri namespaces attrs : value) : W * result :=
  call (StartElementNSHandler s) ZNone w ctx [localname; prefix; uri; namespaces; attrs].

(* /repo/sax/sax2.go:245-250 *)
Definition SAX2_UnparsedEntityDecl (s : SAX2) (w : W) (ctx : value) (name publicID systemID notationName : value) : W * result :=
  call (UnparsedEntityDeclHandler s) ZNone w ctx [name; publicID; systemID; notationName].

(* The events, by name. *)
Inductive event_kind :=
| KAttributeDecl
| KCDataBlock
| KCharacters
| KComment
| KElementDecl
| KEndDocument
| KEndElementNS
| KEntityDecl
| KError
| KExternalSubset
| KGetEntity
| KGetParameterEntity
| KHasExternalSubset
| KHasInternalSubset
| KIgnorableWhitespace
| KInternalSubset
| KIsStandalone
| KNotationDecl
| KProcessingInstruction
| KReference
| KResolveEntity
| KSetDocumentLocator
| KStartDocument
| KStartElementNS
| KUnparsedEntityDecl.

(* the handler installed for an event *)
Definition installed (s : SAX2) (k : event_kind) : option callback :=
  match k with
  | KAttributeDecl => AttributeDeclHandler s
  | KCDataBlock => CDataBlockHandler s
  | KCharacters => CharactersHandler s
  | KComment => CommentHandler s
  | KElementDecl => ElementDeclHandler s
  | KEndDocument => EndDocumentHandler s
  | KEndElementNS => EndElementNSHandler s
  | KEntityDecl => EntityDeclHandler s
  | KError => ErrorHandler s
  | KExternalSubset => ExternalSubsetHandler s
  | KGetEntity => GetEntityHandler s
  | KGetParameterEntity => GetParameterEntityHandler s
  | KHasExternalSubset => HasExternalSubsetHandler s
  | KHasInternalSubset => HasInternalSubsetHandler s
  | KIgnorableWhitespace => IgnorableWhitespaceHandler s
  | KInternalSubset => InternalSubsetHandler s
  | KIsStandalone => IsStandaloneHandler s
  | KNotationDecl => NotationDeclHandler s
  | KProcessingInstruction => ProcessingInstructionHandler s
  | KReference => ReferenceHandler s
  | KResolveEntity => ResolveEntityHandler s
  | KSetDocumentLocator => SetDocumentLocatorHandler s
  | KStartDocument => StartDocumentHandler s
  | KStartElementNS => StartElementNSHandler s
  | KUnparsedEntityDecl => UnparsedEntityDeclHandler s
  end.

Definition zero_of (k : event_kind) : zero_result :=
  match k with
  | KAttributeDecl => ZNone
  | KCDataBlock => ZNone
  | KCharacters => ZNone
  | KComment => ZNone
  | KElementDecl => ZNone
  | KEndDocument => ZNone
  | KEndElementNS => ZNone
  | KEntityDecl => ZNone
  | KError => ZNone
  | KExternalSubset => ZNone
  | KGetEntity => ZNil
  | KGetParameterEntity => ZNil
  | KHasExternalSubset => ZFalse
  | KHasInternalSubset => ZFalse
  | KIgnorableWhitespace => ZNone
  | KInternalSubset => ZNone
  | KIsStandalone => ZFalse
  | KNotationDecl => ZNone
  | KProcessingInstruction => ZNone
  | KReference => ZNone
  | KResolveEntity => ZNil
  | KSetDocumentLocator => ZNone
  | KStartDocument => ZNone
  | KStartElementNS => ZNone
  | KUnparsedEntityDecl => ZNone
  end.

(* Calling the method of the event [k] with an argument list; None when the
   number of arguments is not the method's (such a call does not compile). *)
Definition invoke (s : SAX2) (k : event_kind) (w : W) (ctx : value) (args : list value) : option (W * result) :=
  match k, args with
  | KAttributeDecl, [a0; a1; a2; a3; a4; a5] => Some (SAX2_AttributeDecl s w ctx a0 a1 a2 a3 a4 a5)
  | KCDataBlock, [a0] => Some (SAX2_CDataBlock s w ctx a0)
  | KCharacters, [a0] => Some (SAX2_Characters s w ctx a0)
  | KComment, [a0] => Some (SAX2_Comment s w ctx a0)
  | KElementDecl, [a0; a1; a2] => Some (SAX2_ElementDecl s w ctx a0 a1 a2)
  | KEndDocument, [] => Some (SAX2_EndDocument s w ctx)
  | KEndElementNS, [a0; a1; a2] => Some (SAX2_EndElementNS s w ctx a0 a1 a2)
  | KEntityDecl, [a0; a1; a2; a3; a4] => Some (SAX2_EntityDecl s w ctx a0 a1 a2 a3 a4)
  | KError, a0 :: rest => Some (SAX2_Error s w ctx a0 rest)
  | KExternalSubset, [a0; a1; a2] => Some (SAX2_ExternalSubset s w ctx a0 a1 a2)
  | KGetEntity, [a0] => Some (SAX2_GetEntity s w ctx a0)
  | KGetParameterEntity, [a0] => Some (SAX2_GetParameterEntity s w ctx a0)
  | KHasExternalSubset, [] => Some (SAX2_HasExternalSubset s w ctx)
  | KHasInternalSubset, [] => Some (SAX2_HasInternalSubset s w ctx)
  | KIgnorableWhitespace, [a0] => Some (SAX2_IgnorableWhitespace s w ctx a0)
  | KInternalSubset, [a0; a1; a2] => Some (SAX2_InternalSubset s w ctx a0 a1 a2)
  | KIsStandalone, [] => Some (SAX2_IsStandalone s w ctx)
  | KNotationDecl, [a0; a1; a2] => Some (SAX2_NotationDecl s w ctx a0 a1 a2)
  | KProcessingInstruction, [a0; a1] => Some (SAX2_ProcessingInstruction s w ctx a0 a1)
  | KReference, [a0] => Some (SAX2_Reference s w ctx a0)
  | KResolveEntity, [a0; a1] => Some (SAX2_ResolveEntity s w ctx a0 a1)
  | KSetDocumentLocator, [a0] => Some (SAX2_SetDocumentLocator s w ctx a0)
  | KStartDocument, [] => Some (SAX2_StartDocument s w ctx)
  | KStartElementNS, [a0; a1; a2; a3; a4] => Some (SAX2_StartElementNS s w ctx a0 a1 a2 a3 a4)
  | KUnparsedEntityDecl, [a0; a1; a2; a3] => Some (SAX2_UnparsedEntityDecl s w ctx a0 a1 a2 a3)
  | _, _ => None
  end.
End Sax2.

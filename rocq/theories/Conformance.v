(* The fixtures of /repo/test run through the model.  These are tests of the
   reading of the code, not proofs about it: each Example computes, with the
   functions the theorems are about, the output the project's own tests
   compare with (dump_test.go:20-70 for the .dump files, sax_test.go:187-252
   for the .sax2 files).  Left out: comment4
   (not UTF-8, also skipped by dump_test.go), att4 (350 KB), and of the .sax2
   files att11 (skipped by sax_test.go) and xml2 (recorded from another
   program). *)
From Verif Require Import Base Utf8 Escape Scan Parser Heap Dump TreeBuilder Sample.
Local Open Scope Z_scope.

(* parse, then Document.XML: dump_test.go:45-60 *)
Definition redumped (x : str) : option str :=
  match Parse (env0 65533 true) tb (treeH 5000) 40000 tb_init x with
  | (Ret _, s) =>
      match tb_doc (hs s) with
      | Some d => match dumpDoc (tb_heap (hs s)) 5000 d with Ret y => Some y | _ => None end
      | None => None
      end
  | _ => None
  end.

(* newEventEmitter: sax_test.go:19-185, printing into a string and keeping the
   entities declared.  Handlers that it does not set answer
   ErrHandlerUnspecified. *)
Record printer := { out : str; known : list ent }.
Definition say (p : printer) (s : str) : printer := {| out := out p ++ s ++ [10]; known := known p |}.
Fixpoint decimal (n : nat) (z : Z) : str :=
  match n with
  | O => []
  | S n' => if z <? 10 then [48 + z] else decimal n' (z / 10) ++ [48 + z mod 10]
  end.
Definition num (z : Z) : str := decimal 20 z.
Definition len (s : str) : str := num (Z.of_nat (List.length s)).
Definition comma : str := s_ ", ".
Definition or_null (s : str) : str := match s with [] => s_ "NULL" | _ => s end.
Definition uri_or_null (s : str) : str := match s with [] => s_ "NULL" | _ => s_ "'" ++ s ++ s_ "'" end.
Definition chars (name data : str) : str :=
  s_ "SAX." ++ name ++ s_ "(" ++ firstn 30 data ++ comma ++ len data ++ s_ ")".
Definition print_ns (x : option (str * str)) : str :=
  match x with
  | Some (p, u) => (match p with [] => s_ "xmlns" | _ => s_ "xmlns:" ++ p end) ++ s_ "='" ++ u ++ s_ "'" ++ comma
  | None => []
  end.
Definition print_attr (a : attr) : str :=
  match a with
  | AAttr local prefix v =>
      (match prefix with [] => local | _ => prefix ++ s_ ":" ++ local end) ++ s_ "='"
      ++ utf8 (firstn 4 (runes_of v)) ++ s_ "...', " ++ len v
  | ADefault local prefix v =>
      (match prefix with [] => local | _ => prefix ++ s_ ":" ++ local end) ++ s_ "='"
      ++ utf8 (firstn 4 (runes_of v)) ++ s_ "...', " ++ len v
  end.
Definition is_default (a : attr) : bool := match a with AAttr _ _ _ => false | _ => true end.
Fixpoint joined (l : list str) : str :=
  match l with [] => [] | [x] => x | x :: r => x ++ comma ++ joined r end.
Definition print_event (e : event) : option str :=
  match e with
  | ESetDocumentLocator => Some (s_ "SAX.SetDocumentLocator()")
  | EStartDocument => Some (s_ "SAX.StartDocument()")
  | EEndDocument => Some (s_ "SAX.EndDocument()")
  | EComment s => Some (s_ "SAX.Comment(" ++ s ++ s_ ")")
  | ECharacters s => Some (chars (s_ "Characters") s)
  | EIgnorableWhitespace s => Some (chars (s_ "IgnorableWhitespace") s)
  | EInternalSubset n e y => Some (s_ "SAX.InternalSubset(" ++ n ++ comma ++ e ++ comma ++ y ++ s_ ")")
  | EExternalSubset n e y => Some (s_ "SAX.ExternalSubset(" ++ n ++ comma ++ e ++ comma ++ y ++ s_ ")")
  | EReference n => Some (s_ "SAX.Reference(" ++ n ++ s_ ")")
  | EEntityDecl n t e y c =>
      Some (s_ "SAX.UnparsedEntityDecl(" ++ n ++ comma ++ num t ++ comma ++ e ++ comma ++ y ++ comma ++ c ++ s_ ")")
  | EElementDecl n t _ => Some (s_ "SAX.ElementDecl(" ++ n ++ comma ++ num t ++ s_ ", ...)")
  | EAttributeDecl e a t d v _ =>
      Some (s_ "SAX.AttributeDecl(" ++ e ++ comma ++ a ++ comma ++ num t ++ comma ++ num d ++ comma
            ++ or_null v ++ s_ ", ...)")
  | EStartElement l p u ns as_ =>
      Some (s_ "SAX.StartElementNS(" ++ l ++ comma ++ or_null p ++ comma ++ uri_or_null u ++ comma
            ++ num (Z.of_nat (List.length ns)) ++ comma ++ flat_map print_ns ns
            ++ num (Z.of_nat (List.length as_)) ++ comma ++ num (Z.of_nat (List.length (filter is_default as_)))
            ++ (match as_ with [] => [] | _ => comma ++ joined (map print_attr as_) end) ++ s_ ")")
  | EEndElement l p u =>
      Some (s_ "SAX.EndElementNS(" ++ l ++ comma ++ or_null p ++ comma ++ uri_or_null u ++ s_ ")")
  | EProcessingInstruction _ _ | ECDataBlock _ => None
  end.
Definition resolve (p : printer) (n : str) : printer * answer :=
  (say p (s_ "SAX.ResolveEntity(" ++ n ++ s_ ")"),
   match find (fun e => str_eqb (e_name e) n) (known p) with
   | Some e => Answer (Some (Real e)) false
   | None => Answer None true
   end).
Definition emitter : handler printer := {|
  h_event := fun p _ e =>
    match print_event e with
    | Some s =>
        let p' := say p s in
        (match e with
         | EEntityDecl n t _ _ c =>
             {| out := out p'; known := {| e_id := 1; e_name := n; e_type := t; e_content := c |} :: known p' |}
         | _ => p'
         end, HNil)
    | None => (p, HUnspec)
    end;
  h_getEntity := fun p _ n => resolve p n;
  h_getPEntity := fun p _ n => resolve p n;
  h_setOrig := fun p _ _ => p; h_mixed := fun _ _ => None; h_docEntity := fun _ _ => None;
  h_createAttr := fun p _ _ _ => (p, Ret tt); h_chunkEnter := fun p => p; h_chunkLeave := fun _ p => p |}.
(* sax_test.go:222-236 *)
Definition printed (x : str) : option str :=
  match Parse (env0 65533 true) printer emitter 40000 {| out := []; known := [] |} x with
  | (Ret _, s) => Some (out (hs s))
  | _ => None
  end.


(* test/000_whitespace.xml *)
Definition x_000_whitespace : str := Eval vm_compute in (s_ "<?xml version=""1.0""?>
<root>
    <text>There should be ignorable whitespaces between this element and the parent, root</text>
</root>").
Example whitespace_dump : redumped x_000_whitespace = Some (s_ "<?xml version=""1.0""?>
<root>
    <text>There should be ignorable whitespaces between this element and the parent, root</text>
</root>
").
Proof. vm_compute. reflexivity. Qed.
Example whitespace_sax2 : printed x_000_whitespace = Some (s_ "SAX.SetDocumentLocator()
SAX.StartDocument()
SAX.StartElementNS(root, NULL, NULL, 0, 0, 0)
SAX.IgnorableWhitespace(
    , 5)
SAX.StartElementNS(text, NULL, NULL, 0, 0, 0)
SAX.Characters(There should be ignorable whit, 79)
SAX.EndElementNS(text, NULL, NULL)
SAX.IgnorableWhitespace(
, 1)
SAX.EndElementNS(root, NULL, NULL)
SAX.EndDocument()
").
Proof. vm_compute. reflexivity. Qed.
(* test/att1.xml *)
Definition x_att1 : str := Eval vm_compute in (s_ "<doc attr=""to normalize
with a    space""/>
").
Example att1_dump : redumped x_att1 = Some (s_ "<?xml version=""1.0""?>
<doc attr=""to normalize with a    space""/>
").
Proof. vm_compute. reflexivity. Qed.
Example att1_sax2 : printed x_att1 = Some (s_ "SAX.SetDocumentLocator()
SAX.StartDocument()
SAX.StartElementNS(doc, NULL, NULL, 0, 1, 0, attr='to n...', 28)
SAX.EndElementNS(doc, NULL, NULL)
SAX.EndDocument()
").
Proof. vm_compute. reflexivity. Qed.
(* test/att10.xml *)
Definition x_att10 : str := Eval vm_compute in (s_ "<!DOCTYPE doc [
<!ELEMENT doc (tst*)>
<!ELEMENT tst (#PCDATA)>
<!ATTLIST tst a NMTOKENS #IMPLIED>
<!ATTLIST tst b CDATA #IMPLIED>
<!ENTITY d ""&#xD;"">
<!ENTITY a ""&#xA;"">
<!ENTITY da ""&#xD;&#xA;"">
]>
<doc>
<tst a=""

xyz"" b=""

xyz""/>
<tst a=""&d;&d;A&a;&#x20;&a;B&da;"" b=""&d;&d;A&a;&#x20;&a;B&da;""/>
<tst a=""&#xd;&#xd;A&#xa;&#xa;B&#xd;&#xa;"" b=""&#xd;&#xd;A&#xa;&#xa;B&#xd;&#xa;""/>
<tst a=""&#32;x&#32;&#32;y&#32;"" b=""&#32;x&#32;&#32;y&#32;""/>
<tst a="" a b "" b="" a b ""/>
<tst a=""  a  b  "" b=""  a  b  ""/>
</doc>

").
Example att10_dump : redumped x_att10 = Some (s_ "<?xml version=""1.0""?>
<!DOCTYPE doc [
<!ELEMENT doc (tst)*>
<!ELEMENT tst (#PCDATA)>
<!ATTLIST tst a NMTOKENS #IMPLIED>
<!ATTLIST tst b CDATA #IMPLIED>
<!ENTITY d ""&#xD;"">
<!ENTITY a ""&#xA;"">
<!ENTITY da ""&#xD;&#xA;"">
]>
<doc>
<tst a=""xyz"" b=""  xyz""/>
<tst a=""&d;&d;A&a; &a;B&da;"" b=""&d;&d;A&a; &a;B&da;""/>
<tst a=""&#13;&#13;A&#10;&#10;B&#13;&#10;"" b=""&#13;&#13;A&#10;&#10;B&#13;&#10;""/>
<tst a=""x y"" b="" x  y ""/>
<tst a=""a b"" b="" a b ""/>
<tst a=""a b"" b=""  a  b  ""/>
</doc>
").
Proof. vm_compute. reflexivity. Qed.
Example att10_sax2 : printed x_att10 = Some (s_ "SAX.SetDocumentLocator()
SAX.StartDocument()
SAX.InternalSubset(doc, , )
SAX.ElementDecl(doc, 4, ...)
SAX.ElementDecl(tst, 3, ...)
SAX.AttributeDecl(tst, a, 8, 3, NULL, ...)
SAX.AttributeDecl(tst, b, 1, 3, NULL, ...)
SAX.UnparsedEntityDecl(d, 1, , , )
SAX.ResolveEntity(d)
SAX.UnparsedEntityDecl(a, 1, , , 
)
SAX.ResolveEntity(a)
SAX.UnparsedEntityDecl(da, 1, , , 
)
SAX.ResolveEntity(da)
SAX.ExternalSubset(doc, , )
SAX.StartElementNS(doc, NULL, NULL, 0, 0, 0)
SAX.IgnorableWhitespace(
, 1)
SAX.StartElementNS(tst, NULL, NULL, 0, 2, 0, a='xyz...', 3, b='  xy...', 5)
SAX.EndElementNS(tst, NULL, NULL)
SAX.IgnorableWhitespace(
, 1)
SAX.ResolveEntity(d)
SAX.ResolveEntity(d)
SAX.ResolveEntity(a)
SAX.ResolveEntity(a)
SAX.ResolveEntity(da)
SAX.ResolveEntity(d)
SAX.ResolveEntity(d)
SAX.ResolveEntity(a)
SAX.ResolveEntity(a)
SAX.ResolveEntity(da)
SAX.StartElementNS(tst, NULL, NULL, 0, 2, 0, a='&d;&...', 19, b='&d;&...', 19)
SAX.EndElementNS(tst, NULL, NULL)
SAX.IgnorableWhitespace(
, 1)
SAX.StartElementNS(tst, NULL, NULL, 0, 2, 0, a='A
...', 8, b='A
...', 8)
SAX.EndElementNS(tst, NULL, NULL)
SAX.IgnorableWhitespace(
, 1)
SAX.StartElementNS(tst, NULL, NULL, 0, 2, 0, a='x y...', 3, b=' x  ...', 6)
SAX.EndElementNS(tst, NULL, NULL)
SAX.IgnorableWhitespace(
, 1)
SAX.StartElementNS(tst, NULL, NULL, 0, 2, 0, a='a b...', 3, b=' a b...', 5)
SAX.EndElementNS(tst, NULL, NULL)
SAX.IgnorableWhitespace(
, 1)
SAX.StartElementNS(tst, NULL, NULL, 0, 2, 0, a='a b...', 3, b='  a ...', 8)
SAX.EndElementNS(tst, NULL, NULL)
SAX.IgnorableWhitespace(
, 1)
SAX.EndElementNS(doc, NULL, NULL)
SAX.EndDocument()
").
Proof. vm_compute. reflexivity. Qed.
(* test/att11.xml *)
Definition x_att11 : str := Eval vm_compute in (s_ "<?xml version='1.0' standalone='yes'?>
<!DOCTYPE attributes [
<!ELEMENT attributes EMPTY>
<!ATTLIST attributes
   nmtoken    NMTOKEN    #IMPLIED
   nmtokens   NMTOKENS   #IMPLIED>
<!ENTITY ent "" entity&recursive; "">
<!ENTITY recursive ""reference"">
]>
<attributes
  nmtoken =  "" &ent;   &ent; &ent; ""
  nmtokens = "" Test&#x0d;&#x0a;     this&#x20; normalization ""
/>
").
Example att11_dump : redumped x_att11 = Some (s_ "<?xml version=""1.0"" standalone=""yes""?>
<!DOCTYPE attributes [
<!ELEMENT attributes EMPTY>
<!ATTLIST attributes nmtoken NMTOKEN #IMPLIED>
<!ATTLIST attributes nmtokens NMTOKENS #IMPLIED>
<!ENTITY ent "" entity&recursive; "">
<!ENTITY recursive ""reference"">
]>
<attributes nmtoken=""&ent; &ent; &ent;"" nmtokens=""Test&#13;&#10; this normalization""/>
").
Proof. vm_compute. reflexivity. Qed.
(* test/att2.xml *)
Definition x_att2 : str := Eval vm_compute in (s_ "<doc attr=""to normalize  with a space""/>
").
Example att2_dump : redumped x_att2 = Some (s_ "<?xml version=""1.0""?>
<doc attr=""to normalize   with a space""/>
").
Proof. vm_compute. reflexivity. Qed.
Example att2_sax2 : printed x_att2 = Some (s_ "SAX.SetDocumentLocator()
SAX.StartDocument()
SAX.StartElementNS(doc, NULL, NULL, 0, 1, 0, attr='to n...', 27)
SAX.EndElementNS(doc, NULL, NULL)
SAX.EndDocument()
").
Proof. vm_compute. reflexivity. Qed.
(* test/att3.xml *)
Definition x_att3 : str := Eval vm_compute in (s_ "<select onclick=""aaaa&#10;      bbbb&#160;"">f&#160;oo</select>
").
Example att3_dump : redumped x_att3 = Some (s_ "<?xml version=""1.0""?>
<select onclick=""aaaa&#10;      bbbb&#xA0;"">f&#xA0;oo</select>
").
Proof. vm_compute. reflexivity. Qed.
Example att3_sax2 : printed x_att3 = Some (s_ "SAX.SetDocumentLocator()
SAX.StartDocument()
SAX.StartElementNS(select, NULL, NULL, 0, 1, 0, onclick='aaaa...', 17)
SAX.Characters(f, 1)
SAX.Characters( , 2)
SAX.Characters(oo, 2)
SAX.EndElementNS(select, NULL, NULL)
SAX.EndDocument()
").
Proof. vm_compute. reflexivity. Qed.
(* test/att5.xml *)
Definition x_att5 : str := Eval vm_compute in (s_ "<!DOCTYPE doc [<!ATTLIST normId attr NMTOKENS #IMPLIED>]>
<doc>
  <!-- no normalization -->
  <norm attr='   '/>
  <norm attr='
  foo bar   '/>
  <norm attr='

foobar'/>
  <norm attr=' foo bar
'/>
  <norm attr='foobar

'/>
  <norm attr=' &amp; '/>
  <norm attr='
  foo&amp;bar   '/>
  <norm attr='

foobar&amp;'/>
  <norm attr='&amp;foo bar
'/>
  <norm attr='foobar

&amp;'/>
  <norm attr=' &lt; '/>
  <norm attr='
  foo&lt;bar   '/>
  <norm attr='

foobar&lt;'/>
  <norm attr='&lt;foo bar
'/>
  <norm attr='foobar

&lt;'/>
  <norm attr=' &#x20;&#13;&#xa;&#9; '/>
  <!-- normalization -->
  <normId attr='   '/>
  <normId attr='
  foo bar   '/>
  <normId attr='

foobar'/>
  <normId attr=' foo bar
'/>
  <normId attr='foobar

'/>
  <normId attr=' &amp; '/>
  <normId attr='
  foo&amp;bar   '/>
  <normId attr='

foobar&amp;'/>
  <normId attr='&amp;foo bar
'/>
  <normId attr='foobar

&amp;'/>
  <normId attr=' &lt; '/>
  <normId attr='
  foo&lt;bar   '/>
  <normId attr='

foobar&lt;'/>
  <normId attr='&lt;foo bar
'/>
  <normId attr='foobar

&lt;'/>
  <normId attr=' &#13;&#xa;&#9; '/> <!-- PBM serializing back -->
</doc>
").
Example att5_dump : redumped x_att5 = Some (s_ "<?xml version=""1.0""?>
<!DOCTYPE doc [
<!ATTLIST normId attr NMTOKENS #IMPLIED>
]>
<doc>
  <!-- no normalization -->
  <norm attr=""   ""/>
  <norm attr=""   foo bar   ""/>
  <norm attr=""  foobar""/>
  <norm attr="" foo bar ""/>
  <norm attr=""foobar  ""/>
  <norm attr="" &amp; ""/>
  <norm attr=""   foo&amp;bar   ""/>
  <norm attr=""  foobar&amp;""/>
  <norm attr=""&amp;foo bar ""/>
  <norm attr=""foobar  &amp;""/>
  <norm attr="" &lt; ""/>
  <norm attr=""   foo&lt;bar   ""/>
  <norm attr=""  foobar&lt;""/>
  <norm attr=""&lt;foo bar ""/>
  <norm attr=""foobar  &lt;""/>
  <norm attr=""  &#13;&#10;&#9; ""/>
  <!-- normalization -->
  <normId attr=""""/>
  <normId attr=""foo bar""/>
  <normId attr=""foobar""/>
  <normId attr=""foo bar""/>
  <normId attr=""foobar""/>
  <normId attr=""&amp;""/>
  <normId attr=""foo&amp;bar""/>
  <normId attr=""foobar&amp;""/>
  <normId attr=""&amp;foo bar""/>
  <normId attr=""foobar &amp;""/>
  <normId attr=""&lt;""/>
  <normId attr=""foo&lt;bar""/>
  <normId attr=""foobar&lt;""/>
  <normId attr=""&lt;foo bar""/>
  <normId attr=""foobar &lt;""/>
  <normId attr=""&#13;&#10;&#9;""/> <!-- PBM serializing back -->
</doc>
").
Proof. vm_compute. reflexivity. Qed.
Example att5_sax2 : printed x_att5 = Some (s_ "SAX.SetDocumentLocator()
SAX.StartDocument()
SAX.InternalSubset(doc, , )
SAX.AttributeDecl(normId, attr, 8, 3, NULL, ...)
SAX.ExternalSubset(doc, , )
SAX.StartElementNS(doc, NULL, NULL, 0, 0, 0)
SAX.IgnorableWhitespace(
  , 3)
SAX.Comment( no normalization )
SAX.IgnorableWhitespace(
  , 3)
SAX.StartElementNS(norm, NULL, NULL, 0, 1, 0, attr='   ...', 3)
SAX.EndElementNS(norm, NULL, NULL)
SAX.IgnorableWhitespace(
  , 3)
SAX.StartElementNS(norm, NULL, NULL, 0, 1, 0, attr='   f...', 13)
SAX.EndElementNS(norm, NULL, NULL)
SAX.IgnorableWhitespace(
  , 3)
SAX.StartElementNS(norm, NULL, NULL, 0, 1, 0, attr='  fo...', 8)
SAX.EndElementNS(norm, NULL, NULL)
SAX.IgnorableWhitespace(
  , 3)
SAX.StartElementNS(norm, NULL, NULL, 0, 1, 0, attr=' foo...', 9)
SAX.EndElementNS(norm, NULL, NULL)
SAX.IgnorableWhitespace(
  , 3)
SAX.StartElementNS(norm, NULL, NULL, 0, 1, 0, attr='foob...', 8)
SAX.EndElementNS(norm, NULL, NULL)
SAX.IgnorableWhitespace(
  , 3)
SAX.StartElementNS(norm, NULL, NULL, 0, 1, 0, attr=' &#3...', 7)
SAX.EndElementNS(norm, NULL, NULL)
SAX.IgnorableWhitespace(
  , 3)
SAX.StartElementNS(norm, NULL, NULL, 0, 1, 0, attr='   f...', 17)
SAX.EndElementNS(norm, NULL, NULL)
SAX.IgnorableWhitespace(
  , 3)
SAX.StartElementNS(norm, NULL, NULL, 0, 1, 0, attr='  fo...', 13)
SAX.EndElementNS(norm, NULL, NULL)
SAX.IgnorableWhitespace(
  , 3)
SAX.StartElementNS(norm, NULL, NULL, 0, 1, 0, attr='&#38...', 13)
SAX.EndElementNS(norm, NULL, NULL)
SAX.IgnorableWhitespace(
  , 3)
SAX.StartElementNS(norm, NULL, NULL, 0, 1, 0, attr='foob...', 13)
SAX.EndElementNS(norm, NULL, NULL)
SAX.IgnorableWhitespace(
  , 3)
SAX.StartElementNS(norm, NULL, NULL, 0, 1, 0, attr=' < ...', 3)
SAX.EndElementNS(norm, NULL, NULL)
SAX.IgnorableWhitespace(
  , 3)
SAX.StartElementNS(norm, NULL, NULL, 0, 1, 0, attr='   f...', 13)
SAX.EndElementNS(norm, NULL, NULL)
SAX.IgnorableWhitespace(
  , 3)
SAX.StartElementNS(norm, NULL, NULL, 0, 1, 0, attr='  fo...', 9)
SAX.EndElementNS(norm, NULL, NULL)
SAX.IgnorableWhitespace(
  , 3)
SAX.StartElementNS(norm, NULL, NULL, 0, 1, 0, attr='<foo...', 9)
SAX.EndElementNS(norm, NULL, NULL)
SAX.IgnorableWhitespace(
  , 3)
SAX.StartElementNS(norm, NULL, NULL, 0, 1, 0, attr='foob...', 9)
SAX.EndElementNS(norm, NULL, NULL)
SAX.IgnorableWhitespace(
  , 3)
SAX.StartElementNS(norm, NULL, NULL, 0, 1, 0, attr='  
...', 6)
SAX.EndElementNS(norm, NULL, NULL)
SAX.IgnorableWhitespace(
  , 3)
SAX.Comment( normalization )
SAX.IgnorableWhitespace(
  , 3)
SAX.StartElementNS(normId, NULL, NULL, 0, 1, 0, attr='...', 0)
SAX.EndElementNS(normId, NULL, NULL)
SAX.IgnorableWhitespace(
  , 3)
SAX.StartElementNS(normId, NULL, NULL, 0, 1, 0, attr='foo ...', 7)
SAX.EndElementNS(normId, NULL, NULL)
SAX.IgnorableWhitespace(
  , 3)
SAX.StartElementNS(normId, NULL, NULL, 0, 1, 0, attr='foob...', 6)
SAX.EndElementNS(normId, NULL, NULL)
SAX.IgnorableWhitespace(
  , 3)
SAX.StartElementNS(normId, NULL, NULL, 0, 1, 0, attr='foo ...', 7)
SAX.EndElementNS(normId, NULL, NULL)
SAX.IgnorableWhitespace(
  , 3)
SAX.StartElementNS(normId, NULL, NULL, 0, 1, 0, attr='foob...', 6)
SAX.EndElementNS(normId, NULL, NULL)
SAX.IgnorableWhitespace(
  , 3)
SAX.StartElementNS(normId, NULL, NULL, 0, 1, 0, attr='&#38...', 5)
SAX.EndElementNS(normId, NULL, NULL)
SAX.IgnorableWhitespace(
  , 3)
SAX.StartElementNS(normId, NULL, NULL, 0, 1, 0, attr='foo&...', 11)
SAX.EndElementNS(normId, NULL, NULL)
SAX.IgnorableWhitespace(
  , 3)
SAX.StartElementNS(normId, NULL, NULL, 0, 1, 0, attr='foob...', 11)
SAX.EndElementNS(normId, NULL, NULL)
SAX.IgnorableWhitespace(
  , 3)
SAX.StartElementNS(normId, NULL, NULL, 0, 1, 0, attr='&#38...', 12)
SAX.EndElementNS(normId, NULL, NULL)
SAX.IgnorableWhitespace(
  , 3)
SAX.StartElementNS(normId, NULL, NULL, 0, 1, 0, attr='foob...', 12)
SAX.EndElementNS(normId, NULL, NULL)
SAX.IgnorableWhitespace(
  , 3)
SAX.StartElementNS(normId, NULL, NULL, 0, 1, 0, attr='<...', 1)
SAX.EndElementNS(normId, NULL, NULL)
SAX.IgnorableWhitespace(
  , 3)
SAX.StartElementNS(normId, NULL, NULL, 0, 1, 0, attr='foo<...', 7)
SAX.EndElementNS(normId, NULL, NULL)
SAX.IgnorableWhitespace(
  , 3)
SAX.StartElementNS(normId, NULL, NULL, 0, 1, 0, attr='foob...', 7)
SAX.EndElementNS(normId, NULL, NULL)
SAX.IgnorableWhitespace(
  , 3)
SAX.StartElementNS(normId, NULL, NULL, 0, 1, 0, attr='<foo...', 8)
SAX.EndElementNS(normId, NULL, NULL)
SAX.IgnorableWhitespace(
  , 3)
SAX.StartElementNS(normId, NULL, NULL, 0, 1, 0, attr='foob...', 8)
SAX.EndElementNS(normId, NULL, NULL)
SAX.IgnorableWhitespace(
  , 3)
SAX.StartElementNS(normId, NULL, NULL, 0, 1, 0, attr='
	...', 3)
SAX.EndElementNS(normId, NULL, NULL)
SAX.IgnorableWhitespace( , 1)
SAX.Comment( PBM serializing back )
SAX.IgnorableWhitespace(
, 1)
SAX.EndElementNS(doc, NULL, NULL)
SAX.EndDocument()
").
Proof. vm_compute. reflexivity. Qed.
(* test/att6.xml *)
Definition x_att6 : str := Eval vm_compute in (s_ "<?xml version=""1.0"" encoding=""UTF-8""?>
<Invoice xmlns:ccts=""urn:oasis:names:tc:ubl:CoreComponentParameters:1.0:0.70"" xmlns:cct=""urn:oasis:names:tc:ubl:CoreComponentTypes:1.0:0.70"" xmlns:cat=""urn:oasis:names:tc:ubl:CommonAggregateTypes:1.0:0.70"" xmlns=""urn:oasis:names:tc:ubl:Invoice:1.0:0.70"">
   <cat:ReferencedOrder>
      <cat:SellersOrderID schemeID=""pvalue->ReferencedOrder.SellersOrderID.schemeID"" schemeAgencyID=""pvalue->ReferencedOrder.SellersOrderID.schemeAgencyID"" schemeVersionID=""pvalue->ReferencedOrder.SellersOrderID.schemeVersionID"" schemeAgencySchemeID=""pvalue->ReferencedOrder.SellersOrderID.schemeAgencySchemeID"" schemeAgencySchemeAgencyID=""pvalue->ReferencedOrder.SellersOrderID.schemeAgencySchemeAgencyID"" schemeDataURI=""pvalue->ReferencedOrder.SellersOrderID.schemeDataURI"" schemeURI=""pvalue->ReferencedOrder.SellersOrderID.schemeURI"" UID=""pvalue->ReferencedOrder.SellersOrderID.UID"" UIDRef=""pvalue->ReferencedOrder.SellersOrderID.UIDRef"" UIDRefs=""pvalue-&gt;ReferencedOrder.SellersOrderID.UIDRefs0"" language=""pvalue->ReferencedOrder.SellersOrderID.language"">pvalue-&gt;ReferencedOrder.SellersOrderID</cat:SellersOrderID>
   </cat:ReferencedOrder>
</Invoice>").
Example att6_dump : redumped x_att6 = Some (s_ "<?xml version=""1.0"" encoding=""UTF-8""?>
<Invoice xmlns:ccts=""urn:oasis:names:tc:ubl:CoreComponentParameters:1.0:0.70"" xmlns:cct=""urn:oasis:names:tc:ubl:CoreComponentTypes:1.0:0.70"" xmlns:cat=""urn:oasis:names:tc:ubl:CommonAggregateTypes:1.0:0.70"" xmlns=""urn:oasis:names:tc:ubl:Invoice:1.0:0.70"">
   <cat:ReferencedOrder>
      <cat:SellersOrderID schemeID=""pvalue-&gt;ReferencedOrder.SellersOrderID.schemeID"" schemeAgencyID=""pvalue-&gt;ReferencedOrder.SellersOrderID.schemeAgencyID"" schemeVersionID=""pvalue-&gt;ReferencedOrder.SellersOrderID.schemeVersionID"" schemeAgencySchemeID=""pvalue-&gt;ReferencedOrder.SellersOrderID.schemeAgencySchemeID"" schemeAgencySchemeAgencyID=""pvalue-&gt;ReferencedOrder.SellersOrderID.schemeAgencySchemeAgencyID"" schemeDataURI=""pvalue-&gt;ReferencedOrder.SellersOrderID.schemeDataURI"" schemeURI=""pvalue-&gt;ReferencedOrder.SellersOrderID.schemeURI"" UID=""pvalue-&gt;ReferencedOrder.SellersOrderID.UID"" UIDRef=""pvalue-&gt;ReferencedOrder.SellersOrderID.UIDRef"" UIDRefs=""pvalue-&gt;ReferencedOrder.SellersOrderID.UIDRefs0"" language=""pvalue-&gt;ReferencedOrder.SellersOrderID.language"">pvalue-&gt;ReferencedOrder.SellersOrderID</cat:SellersOrderID>
   </cat:ReferencedOrder>
</Invoice>
").
Proof. vm_compute. reflexivity. Qed.
Example att6_sax2 : printed x_att6 = Some (s_ "SAX.SetDocumentLocator()
SAX.StartDocument()
SAX.StartElementNS(Invoice, NULL, 'urn:oasis:names:tc:ubl:Invoice:1.0:0.70', 4, xmlns:ccts='urn:oasis:names:tc:ubl:CoreComponentParameters:1.0:0.70', xmlns:cct='urn:oasis:names:tc:ubl:CoreComponentTypes:1.0:0.70', xmlns:cat='urn:oasis:names:tc:ubl:CommonAggregateTypes:1.0:0.70', xmlns='urn:oasis:names:tc:ubl:Invoice:1.0:0.70', 0, 0)
SAX.IgnorableWhitespace(
   , 4)
SAX.StartElementNS(ReferencedOrder, cat, 'urn:oasis:names:tc:ubl:CommonAggregateTypes:1.0:0.70', 0, 0, 0)
SAX.IgnorableWhitespace(
      , 7)
SAX.StartElementNS(SellersOrderID, cat, 'urn:oasis:names:tc:ubl:CommonAggregateTypes:1.0:0.70', 0, 11, 0, schemeID='pval...', 47, schemeAgencyID='pval...', 53, schemeVersionID='pval...', 54, schemeAgencySchemeID='pval...', 59, schemeAgencySchemeAgencyID='pval...', 65, schemeDataURI='pval...', 52, schemeURI='pval...', 48, UID='pval...', 42, UIDRef='pval...', 45, UIDRefs='pval...', 47, language='pval...', 47)
SAX.Characters(pvalue-, 7)
SAX.Characters(>, 1)
SAX.Characters(ReferencedOrder.SellersOrderID, 30)
SAX.EndElementNS(SellersOrderID, cat, 'urn:oasis:names:tc:ubl:CommonAggregateTypes:1.0:0.70')
SAX.IgnorableWhitespace(
   , 4)
SAX.EndElementNS(ReferencedOrder, cat, 'urn:oasis:names:tc:ubl:CommonAggregateTypes:1.0:0.70')
SAX.IgnorableWhitespace(
, 1)
SAX.EndElementNS(Invoice, NULL, 'urn:oasis:names:tc:ubl:Invoice:1.0:0.70')
SAX.EndDocument()
").
Proof. vm_compute. reflexivity. Qed.
(* test/att7.xml *)
Definition x_att7 : str := Eval vm_compute in (s_ "<!DOCTYPE x [
<!ELEMENT x (test*)>
<!ELEMENT test EMPTY>
<!ATTLIST test att CDATA ""attvalue"">
<!ENTITY test.ent ""<test/>"">
]>
<x>
    <test/>
    &test.ent;
</x>
").
Example att7_dump : redumped x_att7 = Some (s_ "<?xml version=""1.0""?>
<!DOCTYPE x [
<!ELEMENT x (test)*>
<!ELEMENT test EMPTY>
<!ATTLIST test att CDATA ""attvalue"">
<!ENTITY test.ent ""<test/>"">
]>
<x>
    <test/>
    &test.ent;
</x>
").
Proof. vm_compute. reflexivity. Qed.
Example att7_sax2 : printed x_att7 = Some (s_ "SAX.SetDocumentLocator()
SAX.StartDocument()
SAX.InternalSubset(x, , )
SAX.ElementDecl(x, 4, ...)
SAX.ElementDecl(test, 1, ...)
SAX.AttributeDecl(test, att, 1, 1, attvalue, ...)
SAX.UnparsedEntityDecl(test.ent, 1, , , <test/>)
SAX.ResolveEntity(test.ent)
SAX.ExternalSubset(x, , )
SAX.StartElementNS(x, NULL, NULL, 0, 0, 0)
SAX.IgnorableWhitespace(
    , 5)
SAX.StartElementNS(test, NULL, NULL, 0, 1, 1, att='attv...', 8)
SAX.EndElementNS(test, NULL, NULL)
SAX.Characters(
    , 5)
SAX.ResolveEntity(test.ent)
SAX.StartElementNS(test, NULL, NULL, 0, 1, 1, att='attv...', 8)
SAX.EndElementNS(test, NULL, NULL)
SAX.Reference(test.ent)
SAX.IgnorableWhitespace(
, 1)
SAX.EndElementNS(x, NULL, NULL)
SAX.EndDocument()
").
Proof. vm_compute. reflexivity. Qed.
(* test/att8.xml *)
Definition x_att8 : str := Eval vm_compute in (s_ "<?xml version=""1.0"" encoding=""ISO-8859-1""?><ino:response xmlns:ino=""http://namespaces.softwareag.com/tamino/response2"" xmlns:xql=""http://metalab.unc.edu/xql/"" ino:sessionid=""556"" ino:sessionkey=""1590469677""><xql:query>/bsk:DocPart[@docId=&apos;20040308152601345236&apos; and @docPartNo=1]</xql:query><ino:message ino:returnvalue=""0""><ino:messageline>XQL Request processing</ino:messageline></ino:message><xql:result><bsk:DocPart docId=""20040308152601345236"" docPartNo=""1"" ino:id=""15290"" xmlns:bsk=""http://www.heitec.net/sara4/tamino/basket""><bsk:File name=""4898WPZEO2M65"" size=""75195""> </bsk:File></bsk:DocPart></xql:result><ino:message ino:returnvalue=""0""><ino:messageline>XQL Request processed</ino:messageline></ino:message></ino:response>
").
Example att8_dump : redumped x_att8 = Some (s_ "<?xml version=""1.0"" encoding=""ISO-8859-1""?>
<ino:response xmlns:ino=""http://namespaces.softwareag.com/tamino/response2"" xmlns:xql=""http://metalab.unc.edu/xql/"" ino:sessionid=""556"" ino:sessionkey=""1590469677""><xql:query>/bsk:DocPart[@docId='20040308152601345236' and @docPartNo=1]</xql:query><ino:message ino:returnvalue=""0""><ino:messageline>XQL Request processing</ino:messageline></ino:message><xql:result><bsk:DocPart xmlns:bsk=""http://www.heitec.net/sara4/tamino/basket"" docId=""20040308152601345236"" docPartNo=""1"" ino:id=""15290""><bsk:File name=""4898WPZEO2M65"" size=""75195""> </bsk:File></bsk:DocPart></xql:result><ino:message ino:returnvalue=""0""><ino:messageline>XQL Request processed</ino:messageline></ino:message></ino:response>
").
Proof. vm_compute. reflexivity. Qed.
Example att8_sax2 : printed x_att8 = Some (s_ "SAX.SetDocumentLocator()
SAX.StartDocument()
SAX.StartElementNS(response, ino, 'http://namespaces.softwareag.com/tamino/response2', 2, xmlns:ino='http://namespaces.softwareag.com/tamino/response2', xmlns:xql='http://metalab.unc.edu/xql/', 2, 0, ino:sessionid='556...', 3, ino:sessionkey='1590...', 10)
SAX.StartElementNS(query, xql, 'http://metalab.unc.edu/xql/', 0, 0, 0)
SAX.Characters(/bsk:DocPart[@docId=, 20)
SAX.Characters(', 1)
SAX.Characters(20040308152601345236, 20)
SAX.Characters(', 1)
SAX.Characters( and @docPartNo=1], 18)
SAX.EndElementNS(query, xql, 'http://metalab.unc.edu/xql/')
SAX.StartElementNS(message, ino, 'http://namespaces.softwareag.com/tamino/response2', 0, 1, 0, ino:returnvalue='0...', 1)
SAX.StartElementNS(messageline, ino, 'http://namespaces.softwareag.com/tamino/response2', 0, 0, 0)
SAX.Characters(XQL Request processing, 22)
SAX.EndElementNS(messageline, ino, 'http://namespaces.softwareag.com/tamino/response2')
SAX.EndElementNS(message, ino, 'http://namespaces.softwareag.com/tamino/response2')
SAX.StartElementNS(result, xql, 'http://metalab.unc.edu/xql/', 0, 0, 0)
SAX.StartElementNS(DocPart, bsk, 'http://www.heitec.net/sara4/tamino/basket', 1, xmlns:bsk='http://www.heitec.net/sara4/tamino/basket', 3, 0, docId='2004...', 20, docPartNo='1...', 1, ino:id='1529...', 5)
SAX.StartElementNS(File, bsk, 'http://www.heitec.net/sara4/tamino/basket', 0, 2, 0, name='4898...', 13, size='7519...', 5)
SAX.IgnorableWhitespace( , 1)
SAX.EndElementNS(File, bsk, 'http://www.heitec.net/sara4/tamino/basket')
SAX.EndElementNS(DocPart, bsk, 'http://www.heitec.net/sara4/tamino/basket')
SAX.EndElementNS(result, xql, 'http://metalab.unc.edu/xql/')
SAX.StartElementNS(message, ino, 'http://namespaces.softwareag.com/tamino/response2', 0, 1, 0, ino:returnvalue='0...', 1)
SAX.StartElementNS(messageline, ino, 'http://namespaces.softwareag.com/tamino/response2', 0, 0, 0)
SAX.Characters(XQL Request processed, 21)
SAX.EndElementNS(messageline, ino, 'http://namespaces.softwareag.com/tamino/response2')
SAX.EndElementNS(message, ino, 'http://namespaces.softwareag.com/tamino/response2')
SAX.EndElementNS(response, ino, 'http://namespaces.softwareag.com/tamino/response2')
SAX.EndDocument()
").
Proof. vm_compute. reflexivity. Qed.
(* test/att9.xml *)
Definition x_att9 : str := Eval vm_compute in (s_ "<!DOCTYPE doc [
<!ATTLIST doc a1 NMTOKENS "" 1   2       "">
<!ELEMENT doc (#PCDATA)>
]>
<doc/>
").
Example att9_dump : redumped x_att9 = Some (s_ "<?xml version=""1.0""?>
<!DOCTYPE doc [
<!ATTLIST doc a1 NMTOKENS ""1 2"">
<!ELEMENT doc (#PCDATA)>
]>
<doc/>
").
Proof. vm_compute. reflexivity. Qed.
Example att9_sax2 : printed x_att9 = Some (s_ "SAX.SetDocumentLocator()
SAX.StartDocument()
SAX.InternalSubset(doc, , )
SAX.AttributeDecl(doc, a1, 8, 1, 1 2, ...)
SAX.ElementDecl(doc, 3, ...)
SAX.ExternalSubset(doc, , )
SAX.StartElementNS(doc, NULL, NULL, 0, 1, 1, a1='1 2...', 3)
SAX.EndElementNS(doc, NULL, NULL)
SAX.EndDocument()
").
Proof. vm_compute. reflexivity. Qed.
(* test/attrib.xml *)
Definition x_attrib : str := Eval vm_compute in (s_ "<item title=""Icrontic.com - Warning: Breakdancing midget with tourette&apos;s syndrome on-board&#160;&#160;&#160;&#160;&#160;&#160;&#160;&#160;&#160;&#160;&#160;&#160;&#160;&#160;&#160;&#160;&#160;&#160;&#160;&#160;&#160;&#160;&#160;&#160;&#160;&#160;&#160;&#160;&#160;&#160;&#160;&#160;&#160;&#160;&#160;&#160;&#160;&#160;&#160;&#160;&#160;&#160;&#160;&#160;&#160;&#160;&#160;&#160;"" url=""http://www.icrontic.com/"" first_time=""985034339"" last_time=""985034339"" visits=""1""/>
").
Example attrib_dump : redumped x_attrib = Some (s_ "<?xml version=""1.0""?>
<item title=""Icrontic.com - Warning: Breakdancing midget with tourette's syndrome on-board&#xA0;&#xA0;&#xA0;&#xA0;&#xA0;&#xA0;&#xA0;&#xA0;&#xA0;&#xA0;&#xA0;&#xA0;&#xA0;&#xA0;&#xA0;&#xA0;&#xA0;&#xA0;&#xA0;&#xA0;&#xA0;&#xA0;&#xA0;&#xA0;&#xA0;&#xA0;&#xA0;&#xA0;&#xA0;&#xA0;&#xA0;&#xA0;&#xA0;&#xA0;&#xA0;&#xA0;&#xA0;&#xA0;&#xA0;&#xA0;&#xA0;&#xA0;&#xA0;&#xA0;&#xA0;&#xA0;&#xA0;&#xA0;"" url=""http://www.icrontic.com/"" first_time=""985034339"" last_time=""985034339"" visits=""1""/>
").
Proof. vm_compute. reflexivity. Qed.
Example attrib_sax2 : printed x_attrib = Some (s_ "SAX.SetDocumentLocator()
SAX.StartDocument()
SAX.StartElementNS(item, NULL, NULL, 0, 5, 0, title='Icro...', 173, url='http...', 24, first_time='9850...', 9, last_time='9850...', 9, visits='1...', 1)
SAX.EndElementNS(item, NULL, NULL)
SAX.EndDocument()
").
Proof. vm_compute. reflexivity. Qed.
(* test/comment.xml *)
Definition x_comment : str := Eval vm_compute in (s_ "<?xml version=""1.0""?>
<doc>
<!-- document start -->
<empty/>
<!-- document end -->
</doc>
").
Example comment_dump : redumped x_comment = Some (s_ "<?xml version=""1.0""?>
<doc>
<!-- document start -->
<empty/>
<!-- document end -->
</doc>
").
Proof. vm_compute. reflexivity. Qed.
Example comment_sax2 : printed x_comment = Some (s_ "SAX.SetDocumentLocator()
SAX.StartDocument()
SAX.StartElementNS(doc, NULL, NULL, 0, 0, 0)
SAX.IgnorableWhitespace(
, 1)
SAX.Comment( document start )
SAX.IgnorableWhitespace(
, 1)
SAX.StartElementNS(empty, NULL, NULL, 0, 0, 0)
SAX.EndElementNS(empty, NULL, NULL)
SAX.IgnorableWhitespace(
, 1)
SAX.Comment( document end )
SAX.IgnorableWhitespace(
, 1)
SAX.EndElementNS(doc, NULL, NULL)
SAX.EndDocument()
").
Proof. vm_compute. reflexivity. Qed.
(* test/comment2.xml *)
Definition x_comment2 : str := Eval vm_compute in (s_ "<?xml version=""1.0""?>
<!-- document start -->
<doc>
<empty/>
</doc>
<!-- document end -->
").
Example comment2_dump : redumped x_comment2 = Some (s_ "<?xml version=""1.0""?>
<!-- document start -->
<doc>
<empty/>
</doc>
<!-- document end -->
").
Proof. vm_compute. reflexivity. Qed.
Example comment2_sax2 : printed x_comment2 = Some (s_ "SAX.SetDocumentLocator()
SAX.StartDocument()
SAX.Comment( document start )
SAX.StartElementNS(doc, NULL, NULL, 0, 0, 0)
SAX.IgnorableWhitespace(
, 1)
SAX.StartElementNS(empty, NULL, NULL, 0, 0, 0)
SAX.EndElementNS(empty, NULL, NULL)
SAX.IgnorableWhitespace(
, 1)
SAX.EndElementNS(doc, NULL, NULL)
SAX.Comment( document end )
SAX.EndDocument()
").
Proof. vm_compute. reflexivity. Qed.
(* test/comment3.xml *)
Definition x_comment3 : str := Eval vm_compute in (s_ "<?xml version=""1.0"" encoding=""ISO-8859-1""?>
<!-- test of very very long comments and buffer limits
01234567890123456789012345678901234567890123456789
01234567890123456789012345678901234567890123456789
01234567890123456789012345678901234567890123456789
01234567890123456789012345678901234567890123456789
01234567890123456789012345678901234567890123456789
01234567890123456789012345678901234567890123456789
01234567890123456789012345678901234567890123456789
01234567890123456789012345678901234567890123456789
01234567890123456789012345678901234567890123456789
01234567890123456789012345678901234567890123456789
01234567890123456789012345678901234567890123456789
01234567890123456789012345678901234567890123456789
01234567890123456789012345678901234567890123456789
01234567890123456789012345678901234567890123456789
01234567890123456789012345678901234567890123456789
01234567890123456789012345678901234567890123456789
01234567890123456789012345678901234567890123456789
01234567890123456789012345678901234567890123456789
01234567890123456789012345678901234567890123456789
01234567890123456789012345678901234567890123456789
01234567890123456789012345678901234567890123456789
01234567890123456789012345678901234567890123456789
01234567890123456789012345678901234567890123456789
01234567890123456789012345678901234567890123456789
01234567890123456789012345678901234567890123456789
01234567890123456789012345678901234567890123456789
01234567890123456789012345678901234567890123456789
01234567890123456789012345678901234567890123456789
01234567890123456789012345678901234567890123456789
01234567890123456789012345678901234567890123456789
01234567890123456789012345678901234567890123456789
01234567890123456789012345678901234567890123456789
01234567890123456789012345678901234567890123456789
01234567890123456789012345678901234567890123456789
01234567890123456789012345678901234567890123456789
01234567890123456789012345678901234567890123456789
01234567890123456789012345678901234567890123456789
01234567890123456789012345678901234567890123456789
01234567890123456789012345678901234567890123456789
01234567890123456789012345678901234567890123456789
01234567890123456789012345678901234567890123456789
01234567890123456789012345678901234567890123456789
01234567890123456789012345678901234567890123456789
01234567890123456789012345678901234567890123456789
01234567890123456789012345678901234567890123456789
01234567890123456789012345678901234567890123456789
01234567890123456789012345678901234567890123456789
01234567890123456789012345678901234567890123456789
01234567890123456789012345678901234567890123456789
01234567890123456789012345678901234567890123456789
01234567890123456789012345678901234567890123456789
01234567890123456789012345678901234567890123456789
01234567890123456789012345678901234567890123456789
01234567890123456789012345678901234567890123456789
01234567890123456789012345678901234567890123456789
01234567890123456789012345678901234567890123456789
01234567890123456789012345678901234567890123456789
01234567890123456789012345678901234567890123456789
01234567890123456789012345678901234567890123456789
01234567890123456789012345678901234567890123456789
01234567890123456789012345678901234567890123456789
01234567890123456789012345678901234567890123456789
01234567890123456789012345678901234567890123456789
01234567890123456789012345678901234567890123456789
01234567890123456789012345678901234567890123456789
01234567890123456789012345678901234567890123456789
01234567890123456789012345678901234567890123456789
01234567890123456789012345678901234567890123456789
01234567890123456789012345678901234567890123456789
01234567890123456789012345678901234567890123456789
01234567890123456789012345678901234567890123456789
01234567890123456789012345678901234567890123456789
01234567890123456789012345678901234567890123456789
01234567890123456789012345678901234567890123456789
01234567890123456789012345678901234567890123456789
01234567890123456789012345678901234567890123456789
01234567890123456789012345678901234567890123456789
01234567890123456789012345678901234567890123456789
01234567890123456789012345678901234567890123456789
01234567890123456789012345678901234567890123456789
01234567890123456789012345678901234567890123456789
01234567890123456789012345678901234567890123456789
01234567890123456789012345678901234567890123456789
01234567890123456789012345678901234567890123456789
01234567890123456789012345678901234567890123456789
01234567890123456789012345678901234567890123456789
01234567890123456789012345678901234567890123456789
01234567890123456789012345678901234567890123456789
01234567890123456789012345678901234567890123456789
01234567890123456789012345678901234567890123456789
01234567890123456789012345678901234567890123456789
01234567890123456789012345678901234567890123456789
01234567890123456789012345678901234567890123456789
01234567890123456789012345678901234567890123456789
01234567890123456789012345678901234567890123456789
01234567890123456789012345678901234567890123456789
01234567890123456789012345678901234567890123456789
01234567890123456789012345678901234567890123456789
01234567890123456789012345678901234567890123456789
01234567890123456789012345678901234567890123456789
01234567890123456789012345678901234567890123456789
01234567890123456789012345678901234567890123456789
01234567890123456789012345678901234567890123456789
01234567890123456789012345678901234567890123456789
01234567890123456789012345678901234567890123456789
01234567890123456789012345678901234567890123456789
01234567890123456789012345678901234567890123456789
01234567890123456789012345678901234567890123456789
01234567890123456789012345678901234567890123456789
01234567890123456789012345678901234567890123456789
01234567890123456789012345678901234567890123456789
01234567890123456789012345678901234567890123456789
01234567890123456789012345678901234567890123456789
01234567890123456789012345678901234567890123456789
01234567890123456789012345678901234567890123456789
01234567890123456789012345678901234567890123456789
01234567890123456789012345678901234567890123456789
01234567890123456789012345678901234567890123456789
01234567890123456789012345678901234567890123456789
01234567890123456789012345678901234567890123456789
01234567890123456789012345678901234567890123456789
01234567890123456789012345678901234567890123456789
01234567890123456789012345678901234567890123456789
01234567890123456789012345678901234567890123456789
01234567890123456789012345678901234567890123456789
01234567890123456789012345678901234567890123456789
01234567890123456789012345678901234567890123456789
01234567890123456789012345678901234567890123456789
01234567890123456789012345678901234567890123456789
01234567890123456789012345678901234567890123456789
01234567890123456789012345678901234567890123456789
01234567890123456789012345678901234567890123456789
01234567890123456789012345678901234567890123456789
01234567890123456789012345678901234567890123456789
01234567890123456789012345678901234567890123456789
01234567890123456789012345678901234567890123456789
01234567890123456789012345678901234567890123456789
01234567890123456789012345678901234567890123456789
01234567890123456789012345678901234567890123456789
01234567890123456789012345678901234567890123456789
01234567890123456789012345678901234567890123456789
01234567890123456789012345678901234567890123456789
01234567890123456789012345678901234567890123456789
01234567890123456789012345678901234567890123456789
01234567890123456789012345678901234567890123456789
01234567890123456789012345678901234567890123456789
01234567890123456789012345678901234567890123456789
01234567890123456789012345678901234567890123456789
01234567890123456789012345678901234567890123456789
01234567890123456789012345678901234567890123456789
01234567890123456789012345678901234567890123456789
01234567890123456789012345678901234567890123456789
01234567890123456789012345678901234567890123456789
01234567890123456789012345678901234567890123456789
01234567890123456789012345678901234567890123456789
01234567890123456789012345678901234567890123456789
01234567890123456789012345678901234567890123456789
01234567890123456789012345678901234567890123456789
01234567890123456789012345678901234567890123456789
01234567890123456789012345678901234567890123456789
-->
<doc/>
").
Example comment3_dump : redumped x_comment3 = Some (s_ "<?xml version=""1.0"" encoding=""ISO-8859-1""?>
<!-- test of very very long comments and buffer limits
01234567890123456789012345678901234567890123456789
01234567890123456789012345678901234567890123456789
01234567890123456789012345678901234567890123456789
01234567890123456789012345678901234567890123456789
01234567890123456789012345678901234567890123456789
01234567890123456789012345678901234567890123456789
01234567890123456789012345678901234567890123456789
01234567890123456789012345678901234567890123456789
01234567890123456789012345678901234567890123456789
01234567890123456789012345678901234567890123456789
01234567890123456789012345678901234567890123456789
01234567890123456789012345678901234567890123456789
01234567890123456789012345678901234567890123456789
01234567890123456789012345678901234567890123456789
01234567890123456789012345678901234567890123456789
01234567890123456789012345678901234567890123456789
01234567890123456789012345678901234567890123456789
01234567890123456789012345678901234567890123456789
01234567890123456789012345678901234567890123456789
01234567890123456789012345678901234567890123456789
01234567890123456789012345678901234567890123456789
01234567890123456789012345678901234567890123456789
01234567890123456789012345678901234567890123456789
01234567890123456789012345678901234567890123456789
01234567890123456789012345678901234567890123456789
01234567890123456789012345678901234567890123456789
01234567890123456789012345678901234567890123456789
01234567890123456789012345678901234567890123456789
01234567890123456789012345678901234567890123456789
01234567890123456789012345678901234567890123456789
01234567890123456789012345678901234567890123456789
01234567890123456789012345678901234567890123456789
01234567890123456789012345678901234567890123456789
01234567890123456789012345678901234567890123456789
01234567890123456789012345678901234567890123456789
01234567890123456789012345678901234567890123456789
01234567890123456789012345678901234567890123456789
01234567890123456789012345678901234567890123456789
01234567890123456789012345678901234567890123456789
01234567890123456789012345678901234567890123456789
01234567890123456789012345678901234567890123456789
01234567890123456789012345678901234567890123456789
01234567890123456789012345678901234567890123456789
01234567890123456789012345678901234567890123456789
01234567890123456789012345678901234567890123456789
01234567890123456789012345678901234567890123456789
01234567890123456789012345678901234567890123456789
01234567890123456789012345678901234567890123456789
01234567890123456789012345678901234567890123456789
01234567890123456789012345678901234567890123456789
01234567890123456789012345678901234567890123456789
01234567890123456789012345678901234567890123456789
01234567890123456789012345678901234567890123456789
01234567890123456789012345678901234567890123456789
01234567890123456789012345678901234567890123456789
01234567890123456789012345678901234567890123456789
01234567890123456789012345678901234567890123456789
01234567890123456789012345678901234567890123456789
01234567890123456789012345678901234567890123456789
01234567890123456789012345678901234567890123456789
01234567890123456789012345678901234567890123456789
01234567890123456789012345678901234567890123456789
01234567890123456789012345678901234567890123456789
01234567890123456789012345678901234567890123456789
01234567890123456789012345678901234567890123456789
01234567890123456789012345678901234567890123456789
01234567890123456789012345678901234567890123456789
01234567890123456789012345678901234567890123456789
01234567890123456789012345678901234567890123456789
01234567890123456789012345678901234567890123456789
01234567890123456789012345678901234567890123456789
01234567890123456789012345678901234567890123456789
01234567890123456789012345678901234567890123456789
01234567890123456789012345678901234567890123456789
01234567890123456789012345678901234567890123456789
01234567890123456789012345678901234567890123456789
01234567890123456789012345678901234567890123456789
01234567890123456789012345678901234567890123456789
01234567890123456789012345678901234567890123456789
01234567890123456789012345678901234567890123456789
01234567890123456789012345678901234567890123456789
01234567890123456789012345678901234567890123456789
01234567890123456789012345678901234567890123456789
01234567890123456789012345678901234567890123456789
01234567890123456789012345678901234567890123456789
01234567890123456789012345678901234567890123456789
01234567890123456789012345678901234567890123456789
01234567890123456789012345678901234567890123456789
01234567890123456789012345678901234567890123456789
01234567890123456789012345678901234567890123456789
01234567890123456789012345678901234567890123456789
01234567890123456789012345678901234567890123456789
01234567890123456789012345678901234567890123456789
01234567890123456789012345678901234567890123456789
01234567890123456789012345678901234567890123456789
01234567890123456789012345678901234567890123456789
01234567890123456789012345678901234567890123456789
01234567890123456789012345678901234567890123456789
01234567890123456789012345678901234567890123456789
01234567890123456789012345678901234567890123456789
01234567890123456789012345678901234567890123456789
01234567890123456789012345678901234567890123456789
01234567890123456789012345678901234567890123456789
01234567890123456789012345678901234567890123456789
01234567890123456789012345678901234567890123456789
01234567890123456789012345678901234567890123456789
01234567890123456789012345678901234567890123456789
01234567890123456789012345678901234567890123456789
01234567890123456789012345678901234567890123456789
01234567890123456789012345678901234567890123456789
01234567890123456789012345678901234567890123456789
01234567890123456789012345678901234567890123456789
01234567890123456789012345678901234567890123456789
01234567890123456789012345678901234567890123456789
01234567890123456789012345678901234567890123456789
01234567890123456789012345678901234567890123456789
01234567890123456789012345678901234567890123456789
01234567890123456789012345678901234567890123456789
01234567890123456789012345678901234567890123456789
01234567890123456789012345678901234567890123456789
01234567890123456789012345678901234567890123456789
01234567890123456789012345678901234567890123456789
01234567890123456789012345678901234567890123456789
01234567890123456789012345678901234567890123456789
01234567890123456789012345678901234567890123456789
01234567890123456789012345678901234567890123456789
01234567890123456789012345678901234567890123456789
01234567890123456789012345678901234567890123456789
01234567890123456789012345678901234567890123456789
01234567890123456789012345678901234567890123456789
01234567890123456789012345678901234567890123456789
01234567890123456789012345678901234567890123456789
01234567890123456789012345678901234567890123456789
01234567890123456789012345678901234567890123456789
01234567890123456789012345678901234567890123456789
01234567890123456789012345678901234567890123456789
01234567890123456789012345678901234567890123456789
01234567890123456789012345678901234567890123456789
01234567890123456789012345678901234567890123456789
01234567890123456789012345678901234567890123456789
01234567890123456789012345678901234567890123456789
01234567890123456789012345678901234567890123456789
01234567890123456789012345678901234567890123456789
01234567890123456789012345678901234567890123456789
01234567890123456789012345678901234567890123456789
01234567890123456789012345678901234567890123456789
01234567890123456789012345678901234567890123456789
01234567890123456789012345678901234567890123456789
01234567890123456789012345678901234567890123456789
01234567890123456789012345678901234567890123456789
01234567890123456789012345678901234567890123456789
01234567890123456789012345678901234567890123456789
01234567890123456789012345678901234567890123456789
01234567890123456789012345678901234567890123456789
01234567890123456789012345678901234567890123456789
01234567890123456789012345678901234567890123456789
01234567890123456789012345678901234567890123456789
01234567890123456789012345678901234567890123456789
01234567890123456789012345678901234567890123456789
01234567890123456789012345678901234567890123456789
-->
<doc/>
").
Proof. vm_compute. reflexivity. Qed.
Example comment3_sax2 : printed x_comment3 = Some (s_ "SAX.SetDocumentLocator()
SAX.StartDocument()
SAX.Comment( test of very very long comments and buffer limits
01234567890123456789012345678901234567890123456789
01234567890123456789012345678901234567890123456789
01234567890123456789012345678901234567890123456789
01234567890123456789012345678901234567890123456789
01234567890123456789012345678901234567890123456789
01234567890123456789012345678901234567890123456789
01234567890123456789012345678901234567890123456789
01234567890123456789012345678901234567890123456789
01234567890123456789012345678901234567890123456789
01234567890123456789012345678901234567890123456789
01234567890123456789012345678901234567890123456789
01234567890123456789012345678901234567890123456789
01234567890123456789012345678901234567890123456789
01234567890123456789012345678901234567890123456789
01234567890123456789012345678901234567890123456789
01234567890123456789012345678901234567890123456789
01234567890123456789012345678901234567890123456789
01234567890123456789012345678901234567890123456789
01234567890123456789012345678901234567890123456789
01234567890123456789012345678901234567890123456789
01234567890123456789012345678901234567890123456789
01234567890123456789012345678901234567890123456789
01234567890123456789012345678901234567890123456789
01234567890123456789012345678901234567890123456789
01234567890123456789012345678901234567890123456789
01234567890123456789012345678901234567890123456789
01234567890123456789012345678901234567890123456789
01234567890123456789012345678901234567890123456789
01234567890123456789012345678901234567890123456789
01234567890123456789012345678901234567890123456789
01234567890123456789012345678901234567890123456789
01234567890123456789012345678901234567890123456789
01234567890123456789012345678901234567890123456789
01234567890123456789012345678901234567890123456789
01234567890123456789012345678901234567890123456789
01234567890123456789012345678901234567890123456789
01234567890123456789012345678901234567890123456789
01234567890123456789012345678901234567890123456789
01234567890123456789012345678901234567890123456789
01234567890123456789012345678901234567890123456789
01234567890123456789012345678901234567890123456789
01234567890123456789012345678901234567890123456789
01234567890123456789012345678901234567890123456789
01234567890123456789012345678901234567890123456789
01234567890123456789012345678901234567890123456789
01234567890123456789012345678901234567890123456789
01234567890123456789012345678901234567890123456789
01234567890123456789012345678901234567890123456789
01234567890123456789012345678901234567890123456789
01234567890123456789012345678901234567890123456789
01234567890123456789012345678901234567890123456789
01234567890123456789012345678901234567890123456789
01234567890123456789012345678901234567890123456789
01234567890123456789012345678901234567890123456789
01234567890123456789012345678901234567890123456789
01234567890123456789012345678901234567890123456789
01234567890123456789012345678901234567890123456789
01234567890123456789012345678901234567890123456789
01234567890123456789012345678901234567890123456789
01234567890123456789012345678901234567890123456789
01234567890123456789012345678901234567890123456789
01234567890123456789012345678901234567890123456789
01234567890123456789012345678901234567890123456789
01234567890123456789012345678901234567890123456789
01234567890123456789012345678901234567890123456789
01234567890123456789012345678901234567890123456789
01234567890123456789012345678901234567890123456789
01234567890123456789012345678901234567890123456789
01234567890123456789012345678901234567890123456789
01234567890123456789012345678901234567890123456789
01234567890123456789012345678901234567890123456789
01234567890123456789012345678901234567890123456789
01234567890123456789012345678901234567890123456789
01234567890123456789012345678901234567890123456789
01234567890123456789012345678901234567890123456789
01234567890123456789012345678901234567890123456789
01234567890123456789012345678901234567890123456789
01234567890123456789012345678901234567890123456789
01234567890123456789012345678901234567890123456789
01234567890123456789012345678901234567890123456789
01234567890123456789012345678901234567890123456789
01234567890123456789012345678901234567890123456789
01234567890123456789012345678901234567890123456789
01234567890123456789012345678901234567890123456789
01234567890123456789012345678901234567890123456789
01234567890123456789012345678901234567890123456789
01234567890123456789012345678901234567890123456789
01234567890123456789012345678901234567890123456789
01234567890123456789012345678901234567890123456789
01234567890123456789012345678901234567890123456789
01234567890123456789012345678901234567890123456789
01234567890123456789012345678901234567890123456789
01234567890123456789012345678901234567890123456789
01234567890123456789012345678901234567890123456789
01234567890123456789012345678901234567890123456789
01234567890123456789012345678901234567890123456789
01234567890123456789012345678901234567890123456789
01234567890123456789012345678901234567890123456789
01234567890123456789012345678901234567890123456789
01234567890123456789012345678901234567890123456789
01234567890123456789012345678901234567890123456789
01234567890123456789012345678901234567890123456789
01234567890123456789012345678901234567890123456789
01234567890123456789012345678901234567890123456789
01234567890123456789012345678901234567890123456789
01234567890123456789012345678901234567890123456789
01234567890123456789012345678901234567890123456789
01234567890123456789012345678901234567890123456789
01234567890123456789012345678901234567890123456789
01234567890123456789012345678901234567890123456789
01234567890123456789012345678901234567890123456789
01234567890123456789012345678901234567890123456789
01234567890123456789012345678901234567890123456789
01234567890123456789012345678901234567890123456789
01234567890123456789012345678901234567890123456789
01234567890123456789012345678901234567890123456789
01234567890123456789012345678901234567890123456789
01234567890123456789012345678901234567890123456789
01234567890123456789012345678901234567890123456789
01234567890123456789012345678901234567890123456789
01234567890123456789012345678901234567890123456789
01234567890123456789012345678901234567890123456789
01234567890123456789012345678901234567890123456789
01234567890123456789012345678901234567890123456789
01234567890123456789012345678901234567890123456789
01234567890123456789012345678901234567890123456789
01234567890123456789012345678901234567890123456789
01234567890123456789012345678901234567890123456789
01234567890123456789012345678901234567890123456789
01234567890123456789012345678901234567890123456789
01234567890123456789012345678901234567890123456789
01234567890123456789012345678901234567890123456789
01234567890123456789012345678901234567890123456789
01234567890123456789012345678901234567890123456789
01234567890123456789012345678901234567890123456789
01234567890123456789012345678901234567890123456789
01234567890123456789012345678901234567890123456789
01234567890123456789012345678901234567890123456789
01234567890123456789012345678901234567890123456789
01234567890123456789012345678901234567890123456789
01234567890123456789012345678901234567890123456789
01234567890123456789012345678901234567890123456789
01234567890123456789012345678901234567890123456789
01234567890123456789012345678901234567890123456789
01234567890123456789012345678901234567890123456789
01234567890123456789012345678901234567890123456789
01234567890123456789012345678901234567890123456789
01234567890123456789012345678901234567890123456789
01234567890123456789012345678901234567890123456789
01234567890123456789012345678901234567890123456789
01234567890123456789012345678901234567890123456789
01234567890123456789012345678901234567890123456789
01234567890123456789012345678901234567890123456789
01234567890123456789012345678901234567890123456789
01234567890123456789012345678901234567890123456789
01234567890123456789012345678901234567890123456789
01234567890123456789012345678901234567890123456789
01234567890123456789012345678901234567890123456789
01234567890123456789012345678901234567890123456789
01234567890123456789012345678901234567890123456789
)
SAX.StartElementNS(doc, NULL, NULL, 0, 0, 0)
SAX.EndElementNS(doc, NULL, NULL)
SAX.EndDocument()
").
Proof. vm_compute. reflexivity. Qed.
(* test/comment5.xml *)
Definition x_comment5 : str := Eval vm_compute in (s_ "<?xml version=""1.0"" encoding=""ISO-8859-1""?>
<!-- test of hyphen and line break handling
     some text - interrupted -
- - - - - - - - - - - - - - - - - - - - - -
                      this should stop here^


-->
<doc/>
").
Example comment5_dump : redumped x_comment5 = Some (s_ "<?xml version=""1.0"" encoding=""ISO-8859-1""?>
<!-- test of hyphen and line break handling
     some text - interrupted -
- - - - - - - - - - - - - - - - - - - - - -
                      this should stop here^


-->
<doc/>
").
Proof. vm_compute. reflexivity. Qed.
Example comment5_sax2 : printed x_comment5 = Some (s_ "SAX.SetDocumentLocator()
SAX.StartDocument()
SAX.Comment( test of hyphen and line break handling
     some text - interrupted -
- - - - - - - - - - - - - - - - - - - - - -
                      this should stop here^


)
SAX.StartElementNS(doc, NULL, NULL, 0, 0, 0)
SAX.EndElementNS(doc, NULL, NULL)
SAX.EndDocument()
").
Proof. vm_compute. reflexivity. Qed.
(* test/comment6.xml *)
Definition x_comment6 : str := Eval vm_compute in (s_ "<!--
long comment long comment long comment long comment long comment long comment
long comment long comment long comment long comment long comment long comment
long comment long comment long comment long comment long comment long comment
long comment long comment long comment long comment long comment long comment
long comment long comment long comment long comment long comment long comment
long comment long comment long comment long comment long comment long comment
long comment long comment long comment long comment long comment long comment
-->
<!DOCTYPE a [ 
<!ELEMENT a EMPTY> 
]>
<a/>
").
Example comment6_dump : redumped x_comment6 = Some (s_ "<?xml version=""1.0""?>
<!--
long comment long comment long comment long comment long comment long comment
long comment long comment long comment long comment long comment long comment
long comment long comment long comment long comment long comment long comment
long comment long comment long comment long comment long comment long comment
long comment long comment long comment long comment long comment long comment
long comment long comment long comment long comment long comment long comment
long comment long comment long comment long comment long comment long comment
-->
<!DOCTYPE a [
<!ELEMENT a EMPTY>
]>
<a/>
").
Proof. vm_compute. reflexivity. Qed.
Example comment6_sax2 : printed x_comment6 = Some (s_ "SAX.SetDocumentLocator()
SAX.StartDocument()
SAX.Comment(
long comment long comment long comment long comment long comment long comment
long comment long comment long comment long comment long comment long comment
long comment long comment long comment long comment long comment long comment
long comment long comment long comment long comment long comment long comment
long comment long comment long comment long comment long comment long comment
long comment long comment long comment long comment long comment long comment
long comment long comment long comment long comment long comment long comment
)
SAX.InternalSubset(a, , )
SAX.ElementDecl(a, 1, ...)
SAX.ExternalSubset(a, , )
SAX.StartElementNS(a, NULL, NULL, 0, 0, 0)
SAX.EndElementNS(a, NULL, NULL)
SAX.EndDocument()
").
Proof. vm_compute. reflexivity. Qed.
(* test/japancrlf.xml *)
Definition x_japancrlf : str := Eval vm_compute in (s_ "﻿<入力メッセージ
	xmlns=""http://schemas.cordys.com/webapps/1.0/bpm/c8c8b82a-0ac0-3d19-01e2-bda74af9b826"">
	<c8c:Ele
		xmlns:c8c=""http://schemas.cordys.com/webapps/1.0/bpm/c8c8b82a-0ac0-3d19-01e2-bda74af9b826""
	/>
</入力メッセージ>").
Example japancrlf_sax2 : printed x_japancrlf = Some (s_ "SAX.SetDocumentLocator()
SAX.StartDocument()
SAX.StartElementNS(入力メッセージ, NULL, 'http://schemas.cordys.com/webapps/1.0/bpm/c8c8b82a-0ac0-3d19-01e2-bda74af9b826', 1, xmlns='http://schemas.cordys.com/webapps/1.0/bpm/c8c8b82a-0ac0-3d19-01e2-bda74af9b826', 0, 0)
SAX.IgnorableWhitespace(
	, 2)
SAX.StartElementNS(Ele, c8c, 'http://schemas.cordys.com/webapps/1.0/bpm/c8c8b82a-0ac0-3d19-01e2-bda74af9b826', 1, xmlns:c8c='http://schemas.cordys.com/webapps/1.0/bpm/c8c8b82a-0ac0-3d19-01e2-bda74af9b826', 0, 0)
SAX.EndElementNS(Ele, c8c, 'http://schemas.cordys.com/webapps/1.0/bpm/c8c8b82a-0ac0-3d19-01e2-bda74af9b826')
SAX.IgnorableWhitespace(
, 1)
SAX.EndElementNS(入力メッセージ, NULL, 'http://schemas.cordys.com/webapps/1.0/bpm/c8c8b82a-0ac0-3d19-01e2-bda74af9b826')
SAX.EndDocument()
").
Proof. vm_compute. reflexivity. Qed.
(* test/slashdot.xml *)
Definition x_slashdot : str := Eval vm_compute in (s_ "<ultramode>
 <story>
    <title>100 Mbit/s on Fibre to the home</title>
    <url>http://slashdot.org/articles/99/06/06/1440211.shtml</url>
    <time>1999-06-06 14:39:59</time>
    <author>CmdrTaco</author>
    <department>wouldn't-it-be-nice</department>
    <topic>internet</topic>
    <comments>20</comments>
    <section>articles</section>
    <image>topicinternet.jpg</image>
  </story>
 <story>
    <title>Gimp 1.2 Preview</title>
    <url>http://slashdot.org/articles/99/06/06/1438246.shtml</url>
    <time>1999-06-06 14:38:40</time>
    <author>CmdrTaco</author>
    <department>stuff-to-read</department>
    <topic>gimp</topic>
    <comments>12</comments>
    <section>articles</section>
    <image>topicgimp.gif</image>
  </story>
 <story>
    <title>Sony's AIBO robot Sold Out</title>
    <url>http://slashdot.org/articles/99/06/06/1432256.shtml</url>
    <time>1999-06-06 14:32:51</time>
    <author>CmdrTaco</author>
    <department>stuff-to-see</department>
    <topic>tech</topic>
    <comments>10</comments>
    <section>articles</section>
    <image>topictech2.jpg</image>
  </story>
 <story>
    <title>Ask Slashdot: Another Word for ""Hacker""?</title>
    <url>http://slashdot.org/askslashdot/99/06/05/1815225.shtml</url>
    <time>1999-06-05 20:00:00</time>
    <author>Cliff</author>
    <department>hacker-vs-cracker</department>
    <topic>news</topic>
    <comments>385</comments>
    <section>askslashdot</section>
    <image>topicnews.gif</image>
  </story>
 <story>
    <title>Corel Linux FAQ</title>
    <url>http://slashdot.org/articles/99/06/05/1842218.shtml</url>
    <time>1999-06-05 18:42:06</time>
    <author>CmdrTaco</author>
    <department>stuff-to-read</department>
    <topic>corel</topic>
    <comments>164</comments>
    <section>articles</section>
    <image>topiccorel.gif</image>
  </story>
 <story>
    <title>Upside downsides MP3.COM.</title>
    <url>http://slashdot.org/articles/99/06/05/1558210.shtml</url>
    <time>1999-06-05 15:56:45</time>
    <author>CmdrTaco</author>
    <department>stuff-to-think-about</department>
    <topic>music</topic>
    <comments>48</comments>
    <section>articles</section>
    <image>topicmusic.gif</image>
  </story>
 <story>
    <title>2 Terabits of Bandwidth</title>
    <url>http://slashdot.org/articles/99/06/05/1554258.shtml</url>
    <time>1999-06-05 15:53:43</time>
    <author>CmdrTaco</author>
    <department>faster-porn</department>
    <topic>internet</topic>
    <comments>66</comments>
    <section>articles</section>
    <image>topicinternet.jpg</image>
  </story>
 <story>
    <title>Suppression of cold fusion research?</title>
    <url>http://slashdot.org/articles/99/06/04/2313200.shtml</url>
    <time>1999-06-04 23:12:29</time>
    <author>Hemos</author>
    <department>possibly-probably</department>
    <topic>science</topic>
    <comments>217</comments>
    <section>articles</section>
    <image>topicscience.gif</image>
  </story>
 <story>
    <title>California Gov. Halts Wage Info Sale</title>
    <url>http://slashdot.org/articles/99/06/04/235256.shtml</url>
    <time>1999-06-04 23:05:34</time>
    <author>Hemos</author>
    <department>woo-hoo!</department>
    <topic>usa</topic>
    <comments>16</comments>
    <section>articles</section>
    <image>topicus.gif</image>
  </story>
 <story>
    <title>Red Hat Announces IPO</title>
    <url>http://slashdot.org/articles/99/06/04/0849207.shtml</url>
    <time>1999-06-04 19:30:18</time>
    <author>Justin</author>
    <department>details-sketchy</department>
    <topic>redhat</topic>
    <comments>155</comments>
    <section>articles</section>
    <image>topicredhat.gif</image>
  </story>
</ultramode>
").
Example slashdot_dump : redumped x_slashdot = Some (s_ "<?xml version=""1.0""?>
<ultramode>
 <story>
    <title>100 Mbit/s on Fibre to the home</title>
    <url>http://slashdot.org/articles/99/06/06/1440211.shtml</url>
    <time>1999-06-06 14:39:59</time>
    <author>CmdrTaco</author>
    <department>wouldn't-it-be-nice</department>
    <topic>internet</topic>
    <comments>20</comments>
    <section>articles</section>
    <image>topicinternet.jpg</image>
  </story>
 <story>
    <title>Gimp 1.2 Preview</title>
    <url>http://slashdot.org/articles/99/06/06/1438246.shtml</url>
    <time>1999-06-06 14:38:40</time>
    <author>CmdrTaco</author>
    <department>stuff-to-read</department>
    <topic>gimp</topic>
    <comments>12</comments>
    <section>articles</section>
    <image>topicgimp.gif</image>
  </story>
 <story>
    <title>Sony's AIBO robot Sold Out</title>
    <url>http://slashdot.org/articles/99/06/06/1432256.shtml</url>
    <time>1999-06-06 14:32:51</time>
    <author>CmdrTaco</author>
    <department>stuff-to-see</department>
    <topic>tech</topic>
    <comments>10</comments>
    <section>articles</section>
    <image>topictech2.jpg</image>
  </story>
 <story>
    <title>Ask Slashdot: Another Word for ""Hacker""?</title>
    <url>http://slashdot.org/askslashdot/99/06/05/1815225.shtml</url>
    <time>1999-06-05 20:00:00</time>
    <author>Cliff</author>
    <department>hacker-vs-cracker</department>
    <topic>news</topic>
    <comments>385</comments>
    <section>askslashdot</section>
    <image>topicnews.gif</image>
  </story>
 <story>
    <title>Corel Linux FAQ</title>
    <url>http://slashdot.org/articles/99/06/05/1842218.shtml</url>
    <time>1999-06-05 18:42:06</time>
    <author>CmdrTaco</author>
    <department>stuff-to-read</department>
    <topic>corel</topic>
    <comments>164</comments>
    <section>articles</section>
    <image>topiccorel.gif</image>
  </story>
 <story>
    <title>Upside downsides MP3.COM.</title>
    <url>http://slashdot.org/articles/99/06/05/1558210.shtml</url>
    <time>1999-06-05 15:56:45</time>
    <author>CmdrTaco</author>
    <department>stuff-to-think-about</department>
    <topic>music</topic>
    <comments>48</comments>
    <section>articles</section>
    <image>topicmusic.gif</image>
  </story>
 <story>
    <title>2 Terabits of Bandwidth</title>
    <url>http://slashdot.org/articles/99/06/05/1554258.shtml</url>
    <time>1999-06-05 15:53:43</time>
    <author>CmdrTaco</author>
    <department>faster-porn</department>
    <topic>internet</topic>
    <comments>66</comments>
    <section>articles</section>
    <image>topicinternet.jpg</image>
  </story>
 <story>
    <title>Suppression of cold fusion research?</title>
    <url>http://slashdot.org/articles/99/06/04/2313200.shtml</url>
    <time>1999-06-04 23:12:29</time>
    <author>Hemos</author>
    <department>possibly-probably</department>
    <topic>science</topic>
    <comments>217</comments>
    <section>articles</section>
    <image>topicscience.gif</image>
  </story>
 <story>
    <title>California Gov. Halts Wage Info Sale</title>
    <url>http://slashdot.org/articles/99/06/04/235256.shtml</url>
    <time>1999-06-04 23:05:34</time>
    <author>Hemos</author>
    <department>woo-hoo!</department>
    <topic>usa</topic>
    <comments>16</comments>
    <section>articles</section>
    <image>topicus.gif</image>
  </story>
 <story>
    <title>Red Hat Announces IPO</title>
    <url>http://slashdot.org/articles/99/06/04/0849207.shtml</url>
    <time>1999-06-04 19:30:18</time>
    <author>Justin</author>
    <department>details-sketchy</department>
    <topic>redhat</topic>
    <comments>155</comments>
    <section>articles</section>
    <image>topicredhat.gif</image>
  </story>
</ultramode>
").
Proof. vm_compute. reflexivity. Qed.
Example slashdot_sax2 : printed x_slashdot = Some (s_ "SAX.SetDocumentLocator()
SAX.StartDocument()
SAX.StartElementNS(ultramode, NULL, NULL, 0, 0, 0)
SAX.IgnorableWhitespace(
 , 2)
SAX.StartElementNS(story, NULL, NULL, 0, 0, 0)
SAX.IgnorableWhitespace(
    , 5)
SAX.StartElementNS(title, NULL, NULL, 0, 0, 0)
SAX.Characters(100 Mbit/s on Fibre to the hom, 31)
SAX.EndElementNS(title, NULL, NULL)
SAX.IgnorableWhitespace(
    , 5)
SAX.StartElementNS(url, NULL, NULL, 0, 0, 0)
SAX.Characters(http://slashdot.org/articles/9, 51)
SAX.EndElementNS(url, NULL, NULL)
SAX.IgnorableWhitespace(
    , 5)
SAX.StartElementNS(time, NULL, NULL, 0, 0, 0)
SAX.Characters(1999-06-06 14:39:59, 19)
SAX.EndElementNS(time, NULL, NULL)
SAX.IgnorableWhitespace(
    , 5)
SAX.StartElementNS(author, NULL, NULL, 0, 0, 0)
SAX.Characters(CmdrTaco, 8)
SAX.EndElementNS(author, NULL, NULL)
SAX.IgnorableWhitespace(
    , 5)
SAX.StartElementNS(department, NULL, NULL, 0, 0, 0)
SAX.Characters(wouldn't-it-be-nice, 19)
SAX.EndElementNS(department, NULL, NULL)
SAX.IgnorableWhitespace(
    , 5)
SAX.StartElementNS(topic, NULL, NULL, 0, 0, 0)
SAX.Characters(internet, 8)
SAX.EndElementNS(topic, NULL, NULL)
SAX.IgnorableWhitespace(
    , 5)
SAX.StartElementNS(comments, NULL, NULL, 0, 0, 0)
SAX.Characters(20, 2)
SAX.EndElementNS(comments, NULL, NULL)
SAX.IgnorableWhitespace(
    , 5)
SAX.StartElementNS(section, NULL, NULL, 0, 0, 0)
SAX.Characters(articles, 8)
SAX.EndElementNS(section, NULL, NULL)
SAX.IgnorableWhitespace(
    , 5)
SAX.StartElementNS(image, NULL, NULL, 0, 0, 0)
SAX.Characters(topicinternet.jpg, 17)
SAX.EndElementNS(image, NULL, NULL)
SAX.IgnorableWhitespace(
  , 3)
SAX.EndElementNS(story, NULL, NULL)
SAX.IgnorableWhitespace(
 , 2)
SAX.StartElementNS(story, NULL, NULL, 0, 0, 0)
SAX.IgnorableWhitespace(
    , 5)
SAX.StartElementNS(title, NULL, NULL, 0, 0, 0)
SAX.Characters(Gimp 1.2 Preview, 16)
SAX.EndElementNS(title, NULL, NULL)
SAX.IgnorableWhitespace(
    , 5)
SAX.StartElementNS(url, NULL, NULL, 0, 0, 0)
SAX.Characters(http://slashdot.org/articles/9, 51)
SAX.EndElementNS(url, NULL, NULL)
SAX.IgnorableWhitespace(
    , 5)
SAX.StartElementNS(time, NULL, NULL, 0, 0, 0)
SAX.Characters(1999-06-06 14:38:40, 19)
SAX.EndElementNS(time, NULL, NULL)
SAX.IgnorableWhitespace(
    , 5)
SAX.StartElementNS(author, NULL, NULL, 0, 0, 0)
SAX.Characters(CmdrTaco, 8)
SAX.EndElementNS(author, NULL, NULL)
SAX.IgnorableWhitespace(
    , 5)
SAX.StartElementNS(department, NULL, NULL, 0, 0, 0)
SAX.Characters(stuff-to-read, 13)
SAX.EndElementNS(department, NULL, NULL)
SAX.IgnorableWhitespace(
    , 5)
SAX.StartElementNS(topic, NULL, NULL, 0, 0, 0)
SAX.Characters(gimp, 4)
SAX.EndElementNS(topic, NULL, NULL)
SAX.IgnorableWhitespace(
    , 5)
SAX.StartElementNS(comments, NULL, NULL, 0, 0, 0)
SAX.Characters(12, 2)
SAX.EndElementNS(comments, NULL, NULL)
SAX.IgnorableWhitespace(
    , 5)
SAX.StartElementNS(section, NULL, NULL, 0, 0, 0)
SAX.Characters(articles, 8)
SAX.EndElementNS(section, NULL, NULL)
SAX.IgnorableWhitespace(
    , 5)
SAX.StartElementNS(image, NULL, NULL, 0, 0, 0)
SAX.Characters(topicgimp.gif, 13)
SAX.EndElementNS(image, NULL, NULL)
SAX.IgnorableWhitespace(
  , 3)
SAX.EndElementNS(story, NULL, NULL)
SAX.IgnorableWhitespace(
 , 2)
SAX.StartElementNS(story, NULL, NULL, 0, 0, 0)
SAX.IgnorableWhitespace(
    , 5)
SAX.StartElementNS(title, NULL, NULL, 0, 0, 0)
SAX.Characters(Sony's AIBO robot Sold Out, 26)
SAX.EndElementNS(title, NULL, NULL)
SAX.IgnorableWhitespace(
    , 5)
SAX.StartElementNS(url, NULL, NULL, 0, 0, 0)
SAX.Characters(http://slashdot.org/articles/9, 51)
SAX.EndElementNS(url, NULL, NULL)
SAX.IgnorableWhitespace(
    , 5)
SAX.StartElementNS(time, NULL, NULL, 0, 0, 0)
SAX.Characters(1999-06-06 14:32:51, 19)
SAX.EndElementNS(time, NULL, NULL)
SAX.IgnorableWhitespace(
    , 5)
SAX.StartElementNS(author, NULL, NULL, 0, 0, 0)
SAX.Characters(CmdrTaco, 8)
SAX.EndElementNS(author, NULL, NULL)
SAX.IgnorableWhitespace(
    , 5)
SAX.StartElementNS(department, NULL, NULL, 0, 0, 0)
SAX.Characters(stuff-to-see, 12)
SAX.EndElementNS(department, NULL, NULL)
SAX.IgnorableWhitespace(
    , 5)
SAX.StartElementNS(topic, NULL, NULL, 0, 0, 0)
SAX.Characters(tech, 4)
SAX.EndElementNS(topic, NULL, NULL)
SAX.IgnorableWhitespace(
    , 5)
SAX.StartElementNS(comments, NULL, NULL, 0, 0, 0)
SAX.Characters(10, 2)
SAX.EndElementNS(comments, NULL, NULL)
SAX.IgnorableWhitespace(
    , 5)
SAX.StartElementNS(section, NULL, NULL, 0, 0, 0)
SAX.Characters(articles, 8)
SAX.EndElementNS(section, NULL, NULL)
SAX.IgnorableWhitespace(
    , 5)
SAX.StartElementNS(image, NULL, NULL, 0, 0, 0)
SAX.Characters(topictech2.jpg, 14)
SAX.EndElementNS(image, NULL, NULL)
SAX.IgnorableWhitespace(
  , 3)
SAX.EndElementNS(story, NULL, NULL)
SAX.IgnorableWhitespace(
 , 2)
SAX.StartElementNS(story, NULL, NULL, 0, 0, 0)
SAX.IgnorableWhitespace(
    , 5)
SAX.StartElementNS(title, NULL, NULL, 0, 0, 0)
SAX.Characters(Ask Slashdot: Another Word for, 40)
SAX.EndElementNS(title, NULL, NULL)
SAX.IgnorableWhitespace(
    , 5)
SAX.StartElementNS(url, NULL, NULL, 0, 0, 0)
SAX.Characters(http://slashdot.org/askslashdo, 54)
SAX.EndElementNS(url, NULL, NULL)
SAX.IgnorableWhitespace(
    , 5)
SAX.StartElementNS(time, NULL, NULL, 0, 0, 0)
SAX.Characters(1999-06-05 20:00:00, 19)
SAX.EndElementNS(time, NULL, NULL)
SAX.IgnorableWhitespace(
    , 5)
SAX.StartElementNS(author, NULL, NULL, 0, 0, 0)
SAX.Characters(Cliff, 5)
SAX.EndElementNS(author, NULL, NULL)
SAX.IgnorableWhitespace(
    , 5)
SAX.StartElementNS(department, NULL, NULL, 0, 0, 0)
SAX.Characters(hacker-vs-cracker, 17)
SAX.EndElementNS(department, NULL, NULL)
SAX.IgnorableWhitespace(
    , 5)
SAX.StartElementNS(topic, NULL, NULL, 0, 0, 0)
SAX.Characters(news, 4)
SAX.EndElementNS(topic, NULL, NULL)
SAX.IgnorableWhitespace(
    , 5)
SAX.StartElementNS(comments, NULL, NULL, 0, 0, 0)
SAX.Characters(385, 3)
SAX.EndElementNS(comments, NULL, NULL)
SAX.IgnorableWhitespace(
    , 5)
SAX.StartElementNS(section, NULL, NULL, 0, 0, 0)
SAX.Characters(askslashdot, 11)
SAX.EndElementNS(section, NULL, NULL)
SAX.IgnorableWhitespace(
    , 5)
SAX.StartElementNS(image, NULL, NULL, 0, 0, 0)
SAX.Characters(topicnews.gif, 13)
SAX.EndElementNS(image, NULL, NULL)
SAX.IgnorableWhitespace(
  , 3)
SAX.EndElementNS(story, NULL, NULL)
SAX.IgnorableWhitespace(
 , 2)
SAX.StartElementNS(story, NULL, NULL, 0, 0, 0)
SAX.IgnorableWhitespace(
    , 5)
SAX.StartElementNS(title, NULL, NULL, 0, 0, 0)
SAX.Characters(Corel Linux FAQ, 15)
SAX.EndElementNS(title, NULL, NULL)
SAX.IgnorableWhitespace(
    , 5)
SAX.StartElementNS(url, NULL, NULL, 0, 0, 0)
SAX.Characters(http://slashdot.org/articles/9, 51)
SAX.EndElementNS(url, NULL, NULL)
SAX.IgnorableWhitespace(
    , 5)
SAX.StartElementNS(time, NULL, NULL, 0, 0, 0)
SAX.Characters(1999-06-05 18:42:06, 19)
SAX.EndElementNS(time, NULL, NULL)
SAX.IgnorableWhitespace(
    , 5)
SAX.StartElementNS(author, NULL, NULL, 0, 0, 0)
SAX.Characters(CmdrTaco, 8)
SAX.EndElementNS(author, NULL, NULL)
SAX.IgnorableWhitespace(
    , 5)
SAX.StartElementNS(department, NULL, NULL, 0, 0, 0)
SAX.Characters(stuff-to-read, 13)
SAX.EndElementNS(department, NULL, NULL)
SAX.IgnorableWhitespace(
    , 5)
SAX.StartElementNS(topic, NULL, NULL, 0, 0, 0)
SAX.Characters(corel, 5)
SAX.EndElementNS(topic, NULL, NULL)
SAX.IgnorableWhitespace(
    , 5)
SAX.StartElementNS(comments, NULL, NULL, 0, 0, 0)
SAX.Characters(164, 3)
SAX.EndElementNS(comments, NULL, NULL)
SAX.IgnorableWhitespace(
    , 5)
SAX.StartElementNS(section, NULL, NULL, 0, 0, 0)
SAX.Characters(articles, 8)
SAX.EndElementNS(section, NULL, NULL)
SAX.IgnorableWhitespace(
    , 5)
SAX.StartElementNS(image, NULL, NULL, 0, 0, 0)
SAX.Characters(topiccorel.gif, 14)
SAX.EndElementNS(image, NULL, NULL)
SAX.IgnorableWhitespace(
  , 3)
SAX.EndElementNS(story, NULL, NULL)
SAX.IgnorableWhitespace(
 , 2)
SAX.StartElementNS(story, NULL, NULL, 0, 0, 0)
SAX.IgnorableWhitespace(
    , 5)
SAX.StartElementNS(title, NULL, NULL, 0, 0, 0)
SAX.Characters(Upside downsides MP3.COM., 25)
SAX.EndElementNS(title, NULL, NULL)
SAX.IgnorableWhitespace(
    , 5)
SAX.StartElementNS(url, NULL, NULL, 0, 0, 0)
SAX.Characters(http://slashdot.org/articles/9, 51)
SAX.EndElementNS(url, NULL, NULL)
SAX.IgnorableWhitespace(
    , 5)
SAX.StartElementNS(time, NULL, NULL, 0, 0, 0)
SAX.Characters(1999-06-05 15:56:45, 19)
SAX.EndElementNS(time, NULL, NULL)
SAX.IgnorableWhitespace(
    , 5)
SAX.StartElementNS(author, NULL, NULL, 0, 0, 0)
SAX.Characters(CmdrTaco, 8)
SAX.EndElementNS(author, NULL, NULL)
SAX.IgnorableWhitespace(
    , 5)
SAX.StartElementNS(department, NULL, NULL, 0, 0, 0)
SAX.Characters(stuff-to-think-about, 20)
SAX.EndElementNS(department, NULL, NULL)
SAX.IgnorableWhitespace(
    , 5)
SAX.StartElementNS(topic, NULL, NULL, 0, 0, 0)
SAX.Characters(music, 5)
SAX.EndElementNS(topic, NULL, NULL)
SAX.IgnorableWhitespace(
    , 5)
SAX.StartElementNS(comments, NULL, NULL, 0, 0, 0)
SAX.Characters(48, 2)
SAX.EndElementNS(comments, NULL, NULL)
SAX.IgnorableWhitespace(
    , 5)
SAX.StartElementNS(section, NULL, NULL, 0, 0, 0)
SAX.Characters(articles, 8)
SAX.EndElementNS(section, NULL, NULL)
SAX.IgnorableWhitespace(
    , 5)
SAX.StartElementNS(image, NULL, NULL, 0, 0, 0)
SAX.Characters(topicmusic.gif, 14)
SAX.EndElementNS(image, NULL, NULL)
SAX.IgnorableWhitespace(
  , 3)
SAX.EndElementNS(story, NULL, NULL)
SAX.IgnorableWhitespace(
 , 2)
SAX.StartElementNS(story, NULL, NULL, 0, 0, 0)
SAX.IgnorableWhitespace(
    , 5)
SAX.StartElementNS(title, NULL, NULL, 0, 0, 0)
SAX.Characters(2 Terabits of Bandwidth, 23)
SAX.EndElementNS(title, NULL, NULL)
SAX.IgnorableWhitespace(
    , 5)
SAX.StartElementNS(url, NULL, NULL, 0, 0, 0)
SAX.Characters(http://slashdot.org/articles/9, 51)
SAX.EndElementNS(url, NULL, NULL)
SAX.IgnorableWhitespace(
    , 5)
SAX.StartElementNS(time, NULL, NULL, 0, 0, 0)
SAX.Characters(1999-06-05 15:53:43, 19)
SAX.EndElementNS(time, NULL, NULL)
SAX.IgnorableWhitespace(
    , 5)
SAX.StartElementNS(author, NULL, NULL, 0, 0, 0)
SAX.Characters(CmdrTaco, 8)
SAX.EndElementNS(author, NULL, NULL)
SAX.IgnorableWhitespace(
    , 5)
SAX.StartElementNS(department, NULL, NULL, 0, 0, 0)
SAX.Characters(faster-porn, 11)
SAX.EndElementNS(department, NULL, NULL)
SAX.IgnorableWhitespace(
    , 5)
SAX.StartElementNS(topic, NULL, NULL, 0, 0, 0)
SAX.Characters(internet, 8)
SAX.EndElementNS(topic, NULL, NULL)
SAX.IgnorableWhitespace(
    , 5)
SAX.StartElementNS(comments, NULL, NULL, 0, 0, 0)
SAX.Characters(66, 2)
SAX.EndElementNS(comments, NULL, NULL)
SAX.IgnorableWhitespace(
    , 5)
SAX.StartElementNS(section, NULL, NULL, 0, 0, 0)
SAX.Characters(articles, 8)
SAX.EndElementNS(section, NULL, NULL)
SAX.IgnorableWhitespace(
    , 5)
SAX.StartElementNS(image, NULL, NULL, 0, 0, 0)
SAX.Characters(topicinternet.jpg, 17)
SAX.EndElementNS(image, NULL, NULL)
SAX.IgnorableWhitespace(
  , 3)
SAX.EndElementNS(story, NULL, NULL)
SAX.IgnorableWhitespace(
 , 2)
SAX.StartElementNS(story, NULL, NULL, 0, 0, 0)
SAX.IgnorableWhitespace(
    , 5)
SAX.StartElementNS(title, NULL, NULL, 0, 0, 0)
SAX.Characters(Suppression of cold fusion res, 36)
SAX.EndElementNS(title, NULL, NULL)
SAX.IgnorableWhitespace(
    , 5)
SAX.StartElementNS(url, NULL, NULL, 0, 0, 0)
SAX.Characters(http://slashdot.org/articles/9, 51)
SAX.EndElementNS(url, NULL, NULL)
SAX.IgnorableWhitespace(
    , 5)
SAX.StartElementNS(time, NULL, NULL, 0, 0, 0)
SAX.Characters(1999-06-04 23:12:29, 19)
SAX.EndElementNS(time, NULL, NULL)
SAX.IgnorableWhitespace(
    , 5)
SAX.StartElementNS(author, NULL, NULL, 0, 0, 0)
SAX.Characters(Hemos, 5)
SAX.EndElementNS(author, NULL, NULL)
SAX.IgnorableWhitespace(
    , 5)
SAX.StartElementNS(department, NULL, NULL, 0, 0, 0)
SAX.Characters(possibly-probably, 17)
SAX.EndElementNS(department, NULL, NULL)
SAX.IgnorableWhitespace(
    , 5)
SAX.StartElementNS(topic, NULL, NULL, 0, 0, 0)
SAX.Characters(science, 7)
SAX.EndElementNS(topic, NULL, NULL)
SAX.IgnorableWhitespace(
    , 5)
SAX.StartElementNS(comments, NULL, NULL, 0, 0, 0)
SAX.Characters(217, 3)
SAX.EndElementNS(comments, NULL, NULL)
SAX.IgnorableWhitespace(
    , 5)
SAX.StartElementNS(section, NULL, NULL, 0, 0, 0)
SAX.Characters(articles, 8)
SAX.EndElementNS(section, NULL, NULL)
SAX.IgnorableWhitespace(
    , 5)
SAX.StartElementNS(image, NULL, NULL, 0, 0, 0)
SAX.Characters(topicscience.gif, 16)
SAX.EndElementNS(image, NULL, NULL)
SAX.IgnorableWhitespace(
  , 3)
SAX.EndElementNS(story, NULL, NULL)
SAX.IgnorableWhitespace(
 , 2)
SAX.StartElementNS(story, NULL, NULL, 0, 0, 0)
SAX.IgnorableWhitespace(
    , 5)
SAX.StartElementNS(title, NULL, NULL, 0, 0, 0)
SAX.Characters(California Gov. Halts Wage Inf, 36)
SAX.EndElementNS(title, NULL, NULL)
SAX.IgnorableWhitespace(
    , 5)
SAX.StartElementNS(url, NULL, NULL, 0, 0, 0)
SAX.Characters(http://slashdot.org/articles/9, 50)
SAX.EndElementNS(url, NULL, NULL)
SAX.IgnorableWhitespace(
    , 5)
SAX.StartElementNS(time, NULL, NULL, 0, 0, 0)
SAX.Characters(1999-06-04 23:05:34, 19)
SAX.EndElementNS(time, NULL, NULL)
SAX.IgnorableWhitespace(
    , 5)
SAX.StartElementNS(author, NULL, NULL, 0, 0, 0)
SAX.Characters(Hemos, 5)
SAX.EndElementNS(author, NULL, NULL)
SAX.IgnorableWhitespace(
    , 5)
SAX.StartElementNS(department, NULL, NULL, 0, 0, 0)
SAX.Characters(woo-hoo!, 8)
SAX.EndElementNS(department, NULL, NULL)
SAX.IgnorableWhitespace(
    , 5)
SAX.StartElementNS(topic, NULL, NULL, 0, 0, 0)
SAX.Characters(usa, 3)
SAX.EndElementNS(topic, NULL, NULL)
SAX.IgnorableWhitespace(
    , 5)
SAX.StartElementNS(comments, NULL, NULL, 0, 0, 0)
SAX.Characters(16, 2)
SAX.EndElementNS(comments, NULL, NULL)
SAX.IgnorableWhitespace(
    , 5)
SAX.StartElementNS(section, NULL, NULL, 0, 0, 0)
SAX.Characters(articles, 8)
SAX.EndElementNS(section, NULL, NULL)
SAX.IgnorableWhitespace(
    , 5)
SAX.StartElementNS(image, NULL, NULL, 0, 0, 0)
SAX.Characters(topicus.gif, 11)
SAX.EndElementNS(image, NULL, NULL)
SAX.IgnorableWhitespace(
  , 3)
SAX.EndElementNS(story, NULL, NULL)
SAX.IgnorableWhitespace(
 , 2)
SAX.StartElementNS(story, NULL, NULL, 0, 0, 0)
SAX.IgnorableWhitespace(
    , 5)
SAX.StartElementNS(title, NULL, NULL, 0, 0, 0)
SAX.Characters(Red Hat Announces IPO, 21)
SAX.EndElementNS(title, NULL, NULL)
SAX.IgnorableWhitespace(
    , 5)
SAX.StartElementNS(url, NULL, NULL, 0, 0, 0)
SAX.Characters(http://slashdot.org/articles/9, 51)
SAX.EndElementNS(url, NULL, NULL)
SAX.IgnorableWhitespace(
    , 5)
SAX.StartElementNS(time, NULL, NULL, 0, 0, 0)
SAX.Characters(1999-06-04 19:30:18, 19)
SAX.EndElementNS(time, NULL, NULL)
SAX.IgnorableWhitespace(
    , 5)
SAX.StartElementNS(author, NULL, NULL, 0, 0, 0)
SAX.Characters(Justin, 6)
SAX.EndElementNS(author, NULL, NULL)
SAX.IgnorableWhitespace(
    , 5)
SAX.StartElementNS(department, NULL, NULL, 0, 0, 0)
SAX.Characters(details-sketchy, 15)
SAX.EndElementNS(department, NULL, NULL)
SAX.IgnorableWhitespace(
    , 5)
SAX.StartElementNS(topic, NULL, NULL, 0, 0, 0)
SAX.Characters(redhat, 6)
SAX.EndElementNS(topic, NULL, NULL)
SAX.IgnorableWhitespace(
    , 5)
SAX.StartElementNS(comments, NULL, NULL, 0, 0, 0)
SAX.Characters(155, 3)
SAX.EndElementNS(comments, NULL, NULL)
SAX.IgnorableWhitespace(
    , 5)
SAX.StartElementNS(section, NULL, NULL, 0, 0, 0)
SAX.Characters(articles, 8)
SAX.EndElementNS(section, NULL, NULL)
SAX.IgnorableWhitespace(
    , 5)
SAX.StartElementNS(image, NULL, NULL, 0, 0, 0)
SAX.Characters(topicredhat.gif, 15)
SAX.EndElementNS(image, NULL, NULL)
SAX.IgnorableWhitespace(
  , 3)
SAX.EndElementNS(story, NULL, NULL)
SAX.IgnorableWhitespace(
, 1)
SAX.EndElementNS(ultramode, NULL, NULL)
SAX.EndDocument()
").
Proof. vm_compute. reflexivity. Qed.
(* test/title.xml *)
Definition x_title : str := Eval vm_compute in (s_ "<?xml version=""1.0"" encoding=""utf-8""?>
<title>my title</title>
").
Example title_sax2 : printed x_title = Some (s_ "SAX.SetDocumentLocator()
SAX.StartDocument()
SAX.StartElementNS(title, NULL, NULL, 0, 0, 0)
SAX.Characters(my title, 8)
SAX.EndElementNS(title, NULL, NULL)
SAX.EndDocument()
").
Proof. vm_compute. reflexivity. Qed.
(* test/xml1.xml *)
Definition x_xml1 : str := Eval vm_compute in (s_ "<?xml version=""1.0""?>
<!DOCTYPE test [
<!ENTITY example ""<p>An ampersand (&#38;#38;) may be escaped
 numerically (&#38;#38;#38;) or with a general entity
  (&amp;amp;).</p>"" >
]>
<test>&example;</test>
").
Example xml1_sax2 : printed x_xml1 = Some (s_ "SAX.SetDocumentLocator()
SAX.StartDocument()
SAX.InternalSubset(test, , )
SAX.UnparsedEntityDecl(example, 1, , , <p>An ampersand (&#38;) may be escaped
 numerically (&#38;#38;) or with a general entity
  (&amp;amp;).</p>)
SAX.ResolveEntity(example)
SAX.ExternalSubset(test, , )
SAX.StartElementNS(test, NULL, NULL, 0, 0, 0)
SAX.ResolveEntity(example)
SAX.StartElementNS(p, NULL, NULL, 0, 0, 0)
SAX.Characters(An ampersand (, 14)
SAX.Characters(&, 1)
SAX.Characters() may be escaped
 numerically , 31)
SAX.Characters(&, 1)
SAX.Characters(#38;) or with a general entity, 34)
SAX.Characters(&, 1)
SAX.Characters(amp;)., 6)
SAX.EndElementNS(p, NULL, NULL)
SAX.Reference(example)
SAX.EndElementNS(test, NULL, NULL)
SAX.EndDocument()
").
Proof. vm_compute. reflexivity. Qed.

(* The lexical layer of /repo/parserctx.go: functions that only read the input
   cursor.  The cursor (github.com/lestrrat-go/strcursor, not in /repo) is
   modelled as the list of runes not yet consumed. *)
From Coq Require Import Permutation.
From Verif Require Import Base Utf8 Encoding.

(* Go errors, as far as the parser tells them apart: a value built by
   errors.New / fmt.Errorf / a handler, or an ErrParseError around another
   error (/repo/parser_interface.go:90-96). *)
Inductive gerr :=
| Plain (k : string)          (* an error made by the parser *)
| HErr (k : Z)                (* an error made by a SAX handler *)
| PErr (e : gerr).            (* ErrParseError{Err: e}; line and column not modelled *)

(* /repo/parserctx.go:214-227 ctx.error *)
Definition ctx_error (e : gerr) : gerr :=
  match e with PErr _ => e | _ => PErr e end.

(* What the model takes from outside /repo. *)
Record env := {
  eofr : Z;                            (* what RuneCursor.PeekN answers past the end *)
  beof : Z;                            (* the same for ByteCursor *)
  over : nat -> list Z -> list Z;      (* what Advance(n) leaves when fewer than n runes remain *)
  isLetter : Z -> bool;                (* unicode.IsLetter *)
  isDigit : Z -> bool;                 (* unicode.IsDigit *)
  isExtender : Z -> bool;              (* unicode.In(r, unicode.Extender) *)
  urlOk : str -> bool;                 (* url.Parse returns no error *)
  lower : Z -> Z;                      (* unicode.ToLower *)
  decode : codec -> list Z -> list Z;  (* golang.org/x/text decoders, bytes to runes *)
  bytePct : bool;                      (* ByteCursor does not implement strcursor.Cursor, so that
                                          handlePEReference panics in the XML declaration *)
  permute : nat -> list (str * str * str) -> list (str * str * str)
                                       (* the order in which range visits a map: chosen anew
                                          for every loop, which a number tells apart *)
}.

(* A scanner: the outcome and the input left. *)
Definition P (A : Type) := list Z -> outcome gerr A * list Z.
(* no code of /repo: the plumbing of scanners (sequencing, failing, panicking,
   running out of fuel) *)
Definition pret {A} (a : A) : P A := fun l => (Ret a, l).
Definition pfail {A} (e : gerr) : P A := fun l => (Fail e, l).
Definition pbind {A B} (p : P A) (f : A -> P B) : P B := fun l =>
  match p l with
  | (Ret a, l') => f a l'
  | (Fail e, l') => (Fail e, l')
  | (Pan, l') => (Pan, l')
  | (Oof, l') => (Oof, l')
  end.
Definition ppan {A} : P A := fun l => (Pan, l).
Definition poof {A} : P A := fun l => (Oof, l).
(* return ctx.error(err) *)
Definition pwrap {A} (p : P A) : P A := fun l =>
  match p l with
  | (Fail e, l') => (Fail (ctx_error e), l')
  | r => r
  end.
(* if err := f(); err != nil { something else } *)
Definition ptry {A} (p : P A) : P (gerr + A) := fun l =>
  match p l with
  | (Ret a, l') => (Ret (inr a), l')
  | (Fail e, l') => (Ret (inl e), l')
  | (Pan, l') => (Pan, l')
  | (Oof, l') => (Oof, l')
  end.
(* v, err := f(); if err != nil { return ctx.error(e) } *)
Definition por_else {A} (p : P A) (e : gerr) : P A := fun l =>
  match p l with
  | (Fail _, l') => (Fail e, l')
  | r => r
  end.
(* return ctx.error(errors.New(k)), as all over parserctx.go *)
Definition pfailw {A} (k : string) : P A := pfail (PErr (Plain k)).

Declare Scope scan_scope.
Delimit Scope scan_scope with scan.
Notation "x <- p ;; q" := (pbind p (fun x => q)) (at level 61, p at next level, right associativity) : scan_scope.
Notation "p ;; q" := (pbind p (fun _ => q)) (at level 61, right associativity) : scan_scope.

(* Longest prefix satisfying f, and the rest *)
Fixpoint takeW (f : Z -> bool) (l : list Z) : list Z :=
  match l with [] => [] | c :: t => if f c then c :: takeW f t else [] end.
Fixpoint dropW (f : Z -> bool) (l : list Z) : list Z :=
  match l with [] => [] | c :: t => if f c then dropW f t else l end.

(* /repo/parserctx.go:335-337 *)
Definition isBlankCh (c : Z) : bool := (c =? 32) || ((9 <=? c) && (c <=? 10)) || (c =? 13).

(* /repo/parserctx.go:1908-1918.  The conversion uint32(r) sends negative
   runes above 0x10ffff, hence the answer false for them. *)
Definition isChar (r : Z) : bool :=
  if r =? RuneError then false
  else if r <? 0 then false
  else if r <? 256 then ((9 <=? r) && (r <=? 10)) || (r =? 13) || (32 <=? r)
  else ((256 <=? r) && (r <=? 55295)) || ((57344 <=? r) && (r <=? 65533)) || ((65536 <=? r) && (r <=? 1114111)).

(* strings.Replace(s, "\r\n", "\n", -1) *)
Fixpoint crlf (s : str) : str :=
  match s with
  | [] => []
  | a :: t => match t with
              | b :: t' => if (a =? 13) && (b =? 10) then 10 :: crlf t' else a :: crlf t
              | [] => [a]
              end
  end.

(* strings.IndexByte(name, c) > -1, parserctx.go:1838, 3065 *)
Definition mem_byte (b : Z) (s : str) : bool := existsb (fun c => c =? b) s.

(* int32 arithmetic of Go *)
Definition int32 (z : Z) : Z := (z + 2147483648) mod 4294967296 - 2147483648.

Section WithEnv.
Variable E : env.

(* Cursor.Peek / PeekN(n), Done, Advance, HasPrefixString, ConsumeString *)
Definition peek (l : list Z) : Z := hd (eofr E) l.
Definition peekn (n : nat) (l : list Z) : Z := nth (pred n) l (eofr E).
Definition done (l : list Z) : bool := match l with [] => true | _ => false end.
Definition advance (n : nat) (l : list Z) : list Z :=
  if (n <=? List.length l)%nat then skipn n l else over E n l.
Definition padvance (n : nat) : P unit := fun l => (Ret tt, advance n l).
Definition ppeek : P Z := fun l => (Ret (peek l), l).
Definition ppeekn (n : nat) : P Z := fun l => (Ret (peekn n l), l).
Definition phas (p : str) : P bool := fun l => (Ret (has_prefix p l), l).
Definition pconsume (p : str) : P bool := fun l =>
  if has_prefix p l then (Ret true, skipn (List.length p) l) else (Ret false, l).

(* /repo/parserctx.go:1106-1131 skipBlanks.  The call of handlePEReference
   (4982-5170) on a following '%' has no effect: in every parser state it
   returns before moving the cursor (psDTD because ctx.external is never set)
   and its error is dropped. *)
Definition skipBlanks : P bool := fun l =>
  (Ret (negb (Nat.eqb (List.length (takeW isBlankCh l)) 0)), dropW isBlankCh l).

(* /repo/parserctx.go:1717-1725 *)
Definition isNameStartChar (r : Z) : bool := isLetter E r || (r =? 95) || (r =? 58).
Definition isNameChar (r : Z) : bool :=
  (r =? 46) || (r =? 45) || (r =? 95) || (r =? 58) || isLetter E r || isDigit E r || isExtender E r.

(* the character classes tested inside parseName (1622-1629) and parseNCName
   (1801) while scanning; the loops also end at c == 0 *)
Definition nameRest (c : Z) : bool :=
  negb (c =? 0) && negb ((c =? 32) || (c =? 62) || (c =? 47)) &&
  (isLetter E c || isDigit E c || (c =? 46) || (c =? 45) || (c =? 95) || (c =? 58)).
Definition ncnameRest (c : Z) : bool :=
  negb (c =? 0) && (isLetter E c || isDigit E c || (c =? 95) || (c =? 45) || (c =? 46)).

(* /repo/parser_interface.go:33 *)
Definition MaxNameLength : Z := 50000.

(* The common shape of parseName and parseNCName: one start character, then
   the longest run of [rest]; when the run ends at c == 0 the counter i is one
   too large, so that Advance also swallows that character. *)
Definition scanName (start rest : Z -> bool) (k : string) : P str := fun l =>
  let c := peek l in
  if (c =? 32) || (c =? 62) || (c =? 47) || negb (start c) then (Fail (PErr (Plain k)), l)
  else
    let run := takeW rest (tl l) in
    let after := dropW rest (tl l) in
    let i := if peek after =? 0 then S (S (List.length run)) else S (List.length run) in
    if MaxNameLength <? Z.of_nat i then (Fail (PErr (Plain "ErrNameTooLong")), l)
    else (Ret (utf8 (c :: run)), advance i l).

(* /repo/parserctx.go:1593-1647 parseName *)
Definition parseName : P str :=
  scanName (fun c => isLetter E c || (c =? 95) || (c =? 58)) nameRest "invalid first letter".
(* /repo/parserctx.go:1770-1815 parseNCName *)
Definition parseNCName : P str := scanName isNameStartChar ncnameRest "invalid name start char".

(* /repo/parserctx.go:1736-1758 parseNmtoken: c is read once, so that a name
   character makes the loop run forever; nothing is consumed. *)
Definition parseNmtoken : P str := fun l =>
  let c := peek l in
  if (c =? 0) || negb (isNameChar c) then (Ret [], l) else (Oof, l).

(* /repo/parserctx.go:1658-1715 parseQName: (local, prefix).  parseNmtoken
   never fails, so the last fallback (1708-1714) is dead. *)
Definition parseQName : P (str * str) := (
  r <- ptry parseNCName ;;
  match r with
  | inl e =>
      c <- ppeek ;;
      if negb (c =? 58)
      then (v <- por_else parseName (PErr (Plain "failed to parse QName")) ;; pret (v, []))
      else pfail (ctx_error e)
  | inr v =>
      c <- ppeek ;;
      if negb (c =? 58) then pret (v, [])
      else padvance 1 ;;
           r2 <- ptry parseNCName ;;
           match r2 with
           | inr l => pret (l, v)
           | inl _ => l <- parseNmtoken ;; pret (l, v)
           end
  end)%scan.

(* /repo/parserctx.go:4743-4800 parseCharRef, and the accumulators at
   4386-4406 which repeat its arithmetic; val is an int32 and wraps. *)
Definition accDec (val c : Z) : option Z :=
  if (48 <=? c) && (c <=? 57) then Some (int32 (int32 (val * 10) + (c - 48))) else None.
Definition accHex (val c : Z) : option Z :=
  if (48 <=? c) && (c <=? 57) then Some (int32 (int32 (val * 16) + (c - 48)))
  else if (97 <=? c) && (c <=? 102) then Some (int32 (int32 (val * 16) + (c - 97) + 10))
  else if (65 <=? c) && (c <=? 70) then Some (int32 (int32 (val * 16) + (c - 65) + 10))
  else None.
(* the digit loop: stops at ';' or at the end of the input *)
Fixpoint crefLoop (acc : Z -> Z -> option Z) (val : Z) (l : list Z) : option Z * list Z :=
  match l with
  | [] => (Some val, [])
  | c :: t => if c =? 59 then (Some val, l)
              else match acc val c with
                   | Some v => crefLoop acc v t
                   | None => (None, l)
                   end
  end.
Definition parseCharRef : P Z := (
  hex <- pconsume (s_ "&#x") ;;
  dec <- (if hex then pret true else pconsume (s_ "&#")) ;;
  if negb dec then pfail (Plain "invalid char ref")
  else fun l =>
    match crefLoop (if hex then accHex else accDec) 0 l with
    | (None, l') => (Fail (Plain (if hex then "invalid hex CharRef" else "invalid decimal CharRef")), l')
    | (Some val, l') =>
        let l'' := if peek l' =? 59 then advance 1 l' else l' in
        if isChar val && (val <=? 1114111) then (Ret val, l'') else (Fail (Plain "ErrInvalidChar"), l'')
    end)%scan.

(* /repo/parserctx.go:1817-1843 parsePITarget, knownPIs 1502-1505 *)
Definition parsePITarget : P str := (
  name <- pwrap parseName ;;
  if str_eqb name (s_ "xml") then pfail (Plain "XML declaration allowed only at the start of the document")
  else if str_eqb name (s_ "xml-stylesheet") || str_eqb name (s_ "xml-model") then pret name
  else if mem_byte 58 name then pfail (Plain "colons are forbidden from PI names")
  else pret name)%scan.

(* the data loop of parsePI (1549-1560): up to "?>", an illegal character or NUL *)
Fixpoint piLoop (l : list Z) : list Z :=
  match l with
  | [] => []
  | c :: t => if (c =? 0) || ((c =? 63) && (peek t =? 62)) || negb (isChar c) then [] else c :: piLoop t
  end.
(* /repo/parserctx.go:1507-1579 parsePI up to the callback: (target, data) *)
Definition scanPI : P (str * str) := (
  ok <- pconsume (s_ "<?") ;;
  if negb ok then pfailw "ErrInvalidProcessingInstruction"
  else
    target <- pwrap parsePITarget ;;
    fin <- pconsume (s_ "?>") ;;
    if fin then pret (target, [])
    else
      c <- ppeek ;;
      if negb (isBlankCh c) then pfailw "ErrSpaceRequired"
      else
        skipBlanks ;;
        data <- (fun l => (Ret (piLoop l), advance (List.length (piLoop l)) l)) ;;
        ok2 <- pconsume (s_ "?>") ;;
        if negb ok2 then pfailw "ErrInvalidProcessingInstruction"
        else pret (target, utf8 data))%scan.

(* the loop of parseComment (1984-1992): None is ErrHyphenInComment *)
Fixpoint commentLoop (q r : Z) (l : list Z) : option (list Z) :=
  match l with
  | [] => Some []
  | c :: t =>
      if negb (isChar c) || ((q =? 45) && (r =? 45) && (c =? 62)) then Some []
      else if (q =? 45) && (r =? 45) then None
      else match commentLoop r c t with
           | Some cs => Some (c :: cs)
           | None => None
           end
  end.
(* /repo/parserctx.go:1952-2001 parseComment up to the callback.  The loop
   ends at an illegal character (or the end of the input) just as it does at
   the closing '>', and buf.Truncate drops the last two bytes in every case.
   bytes.Replace copies, so the pooled buffer is not shared. *)
Definition scanComment : P str := (
  ok <- pconsume (s_ "<!--") ;;
  if negb ok then pfailw "ErrInvalidComment"
  else fun l =>
    let q := peekn 1 l in
    let r := peekn 2 l in
    if negb (isChar q) then (Fail (PErr (Plain "ErrInvalidChar")), l)
    else if negb (isChar r) then (Fail (PErr (Plain "ErrInvalidChar")), l)
    else match commentLoop q r (tl (tl l)) with
         | None => (Fail (PErr (Plain "ErrHyphenInComment")), l)
         | Some cs =>
             let buf := utf8 (q :: r :: cs) in
             (Ret (crlf (firstn (List.length buf - 2) buf)), advance (List.length cs + 3) l)
         end)%scan.

(* the loop of parseCharData (603-621).  In CDATA mode nothing but "]]>" and
   NUL ends it, so that past the end of the input it goes on forever unless
   PeekN answers 0 there. *)
Inductive cdres := CDOk (cs : list Z) | CDMisplaced | CDHang.
Definition cdcons (c : Z) (r : cdres) : cdres :=
  match r with CDOk cs => CDOk (c :: cs) | _ => r end.
Fixpoint charDataLoop (cdata : bool) (l : list Z) : cdres :=
  match l with
  | [] => if eofr E =? 0 then CDOk []
          else if cdata then CDHang else CDOk []
  | c :: t =>
      if c =? 0 then CDOk []
      else if negb cdata && ((c =? 60) || (c =? 38) || negb (isChar c)) then CDOk []
      else if (c =? 93) && (peekn 1 t =? 93) && (peekn 2 t =? 62)
           then (if cdata then CDOk [] else CDMisplaced)
           else cdcons c (charDataLoop cdata t)
  end.
(* /repo/parserctx.go:589-632 parseCharData up to the callbacks.  In the
   non-CDATA case the end of the input ends the loop because the rune PeekN
   answers is not isChar (see env_ok). *)
Definition scanCharData (cdata : bool) : P str := fun l =>
  match charDataLoop cdata l with
  | CDHang => (Oof, l)
  | CDMisplaced => (Fail (PErr (Plain "ErrMisplacedCDATAEnd")), l)
  | CDOk [] => (Fail (Plain "Invalid char data"), l)
  | CDOk cs => (Ret (crlf (utf8 cs)), advance (List.length cs) l)
  end.

(* ---- the XML declaration, on bytes ---- *)
(* Peek, PeekN of the byte cursor and the test for the closing '?>'
   (parserctx.go:1180, 1197, 1211) *)
Definition bpeek (l : list Z) : Z := hd (beof E) l.
Definition bpeekn (n : nat) (l : list Z) : Z := nth (pred n) l (beof E).
Definition pbpeek : P Z := fun l => (Ret (bpeek l), l).
Definition pbclose : P bool := fun l =>          (* cur.Peek() == '?' && cur.PeekN(2) == '>' *)
  if (bpeek l =? 63) && (bpeekn 2 l =? 62) then (Ret true, advance 2 l) else (Ret false, l).

(* /repo/parserctx.go:1133-1154 skipBlankBytes.  A '%' after the blanks calls
   handlePEReference, which asks for a rune cursor. *)
Definition skipBlankBytes : P bool := fun l =>
  let n := List.length (takeW isBlankCh l) in
  let l' := dropW isBlankCh l in
  if Nat.eqb n 0 then (Ret false, l')
  else if (bpeek l' =? 37) && bytePct E then (Pan, l') else (Ret true, l').

(* the tests c >= '0' && c <= '9' and for a letter, parserctx.go:1290-1300,
   1405-1420 *)
Definition isD (c : Z) : bool := (48 <=? c) && (c <=? 57).
Definition isAZ (c : Z) : bool := ((97 <=? c) && (c <=? 122)) || ((65 <=? c) && (c <=? 90)).

(* /repo/parserctx.go:1286-1317 parseVersionNum *)
Definition parseVersionNum : P str := fun l =>
  if negb (isD (bpeek l)) then (Fail (Plain "ErrInvalidVersionNum"), l)
  else if negb (bpeekn 2 l =? 46) then (Fail (Plain "ErrInvalidVersionNum"), l)
  else if negb (isD (bpeekn 3 l)) then (Fail (Plain "ErrInvalidVersionNum"), l)
  else let run := takeW isD (skipn 3 l) in
       (Ret (firstn 3 l ++ run), advance (3 + List.length run) l).

(* /repo/parserctx.go:1399-1432 parseEncodingName *)
Definition encRest (c : Z) : bool :=
  negb (c =? 0) && (isAZ c || isD c || (c =? 46) || (c =? 95) || (c =? 45)).
Definition parseEncodingName : P str := fun l =>
  let c := bpeek l in
  if negb (isAZ c) then (Fail (PErr (Plain "ErrInvalidEncodingName")), l)
  else let run := takeW encRest (tl l) in
       let after := dropW encRest (tl l) in
       let i := if bpeek after =? 0 then S (S (List.length run)) else S (List.length run) in
       (Ret (c :: run), advance i l).

(* /repo/parserctx.go:1453-1471 *)
Definition parseStandaloneDeclValue : P str := (
  y <- pconsume (s_ "yes") ;;
  if y then pret (s_ "yes")
  else n <- pconsume (s_ "no") ;;
       if n then pret (s_ "no") else pfail (Plain "invalid standalone declaration"))%scan.

(* /repo/parserctx.go:1321-1353 parseQuotedTextBytes *)
Definition parseQuotedTextBytes (cb : P str) : P str := (
  q <- pbpeek ;;
  if negb ((q =? 34) || (q =? 39)) then pfail (Plain "string not started")
  else padvance 1 ;;
       value <- cb ;;
       c <- pbpeek ;;
       if negb (c =? q) then pfail (Plain "string not closed")
       else padvance 1 ;; pret value)%scan.

(* /repo/parserctx.go:1255-1275 parseNamedAttributeBytes *)
Definition parseNamedAttributeBytes (name : str) (cb : P str) : P str := (
  skipBlankBytes ;;
  ok <- pconsume name ;;
  if negb ok then pfail (ctx_error (Plain "ErrAttrNotFound"))
  else
    skipBlankBytes ;;
    c <- pbpeek ;;
    if negb (c =? 61) then pfail (Plain "ErrEqualSignRequired")
    else padvance 1 ;; skipBlankBytes ;; parseQuotedTextBytes cb)%scan.

(* DocumentStandaloneType, /repo/interface.go:135-141 *)
Definition StandaloneExplicitYes : Z := 1.
Definition StandaloneExplicitNo : Z := 0.
Definition StandaloneImplicitNo : Z := -2.

(* what parseXMLDecl leaves in ctx.version, ctx.encoding and ctx.standalone *)
Record xmldecl := { xd_version : str; xd_encoding : str; xd_standalone : Z }.

(* /repo/parserctx.go:1436-1451 parseStandaloneDecl *)
Definition parseStandaloneDecl : P Z := (
  v <- parseNamedAttributeBytes (s_ "standalone") parseStandaloneDeclValue ;;
  pret (if str_eqb v (s_ "yes") then StandaloneExplicitYes else StandaloneExplicitNo))%scan.

(* /repo/parserctx.go:1157-1216 parseXMLDecl.  An error of the encoding
   pseudo-attribute is dropped unless it is a bare ErrAttrNotFound (1201),
   which parseNamedAttributeBytes never returns. *)
Definition parseXMLDecl : P xmldecl := (
  ok <- pconsume (s_ "<?xml") ;;
  if negb ok then pfailw "ErrInvalidXMLDecl"
  else
    b <- skipBlankBytes ;;
    if negb b then pfail (Plain "blank needed after '<?xml'")
    else
      v <- pwrap (parseNamedAttributeBytes (s_ "version") parseVersionNum) ;;
      c <- pbpeek ;;
      if negb (isBlankCh c)
      then (fin <- pbclose ;;
            if fin then pret {| xd_version := v; xd_encoding := []; xd_standalone := StandaloneImplicitNo |}
            else pfailw "ErrSpaceRequired")
      else
        r <- ptry (parseNamedAttributeBytes (s_ "encoding") parseEncodingName) ;;
        let rest (enc : str) :=
          (sa <- parseStandaloneDecl ;;
           fin <- pbclose ;;
           if fin then pret {| xd_version := v; xd_encoding := enc; xd_standalone := sa |}
           else pfailw "XML declaration not closed") in
        match r with
        | inr enc =>
            fin <- pbclose ;;
            if fin then pret {| xd_version := v; xd_encoding := enc; xd_standalone := StandaloneImplicitNo |}
            else rest enc
        | inl (Plain k) => if String.eqb k "ErrAttrNotFound" then pfailw k else rest []
        | inl _ => rest []
        end)%scan.

(* ---- strings scanned after the fact ---- *)

(* /repo/parserctx.go:4409-4463 parseStringCharRef: rune and the bytes left;
   indexing past the end panics *)
Fixpoint scrLoop (acc : Z -> Z -> option Z) (val : Z) (s : str) : outcome gerr (Z * str) :=
  match s with
  | [] => Pan
  | c :: t =>
      if c =? 59 then Ret (val, t)
      else match acc val c with
           | None => Fail (Plain "invalid CharRef")
           | Some v => if 1114111 <? v then Fail (Plain "hex CharRef out of range") else scrLoop acc v t
           end
  end.
Definition parseStringCharRef (s : str) : outcome gerr (Z * str) :=
  if negb (has_prefix (s_ "&#") s) then Fail (Plain "ampersand (&) was required")
  else
    let s2 := skipn 2 s in
    match s2 with
    | [] => Pan
    | c :: t =>
        match (if c =? 120 then scrLoop accHex 0 t else scrLoop accDec 0 s2) with
        | Ret (val, rest) => if isChar val then Ret (val, rest) else Fail (Plain "invalid XML char value")
        | r => r
        end
    end.

(* /repo/parserctx.go:2909-2982 decodeEntities, with what = SubstitutePERef,
   the only mode that is ever reached (replaceEntities is never set): general
   entity references are copied; a '%' calls parseStringPEReference (4677),
   whose parseStringName looks at the '%' itself and fails. *)
Fixpoint decodeEntities_fuel (n : nat) (s : str) : outcome gerr str :=
  match n with
  | O => match s with [] => Ret [] | _ => Oof end
  | S n' =>
      match s with
      | [] => Ret []
      | c :: t =>
          if has_prefix (s_ "&#") s then
            match parseStringCharRef s with
            | Ret (val, rest) =>
                match decodeEntities_fuel n' rest with
                | Ret out => Ret (encode_rune val ++ out)
                | r => r
                end
            | Fail e => Fail e
            | Pan => Pan
            | Oof => Oof
            end
          else if c =? 37 then Fail (Plain "invalid name start char")
          else match decodeEntities_fuel n' t with
               | Ret out => Ret (c :: out)
               | r => r
               end
      end
  end.
Definition decodeEntities (s : str) : outcome gerr str := decodeEntities_fuel (List.length s) s.

(* /repo/parserctx.go:3571-3621 attrNormalizeSpace; out[len(out)-1] panics when
   the value is all spaces *)
Fixpoint collapse (s : str) : str :=
  match s with
  | [] => []
  | c :: t => if c =? 32
              then match t with
                   | d :: _ => if d =? 32 then collapse t else 32 :: collapse t
                   | [] => [32]
                   end
              else c :: collapse t
  end.
Definition attrNormalizeSpace (s : str) : outcome gerr str :=
  match s with
  | [] => Ret []
  | _ =>
      let out := collapse (dropW (fun c => c =? 32) s) in
      match rev out with
      | [] => Pan
      | c :: r => Ret (if c =? 32 then rev r else out)
      end
  end.

(* ---- content models ---- *)

(* ElementContent, /repo/interface.go:298-307 without the parent link, which
   nothing reads: ctype, coccur, name, prefix, c1, c2 *)
Inductive econt := EC (ct oc : Z) (name prefix : str) (c1 c2 : option econt).
(* ElementContentType and ElementContentOccur, /repo/interface.go:280-296 *)
Definition ctPCDATA : Z := 1.
Definition ctElement : Z := 2.
Definition ctSeq : Z := 3.
Definition ctOr : Z := 4.
Definition ocOnce : Z := 1.
Definition ocOpt : Z := 2.
Definition ocMult : Z := 3.
Definition ocPlus : Z := 4.
(* reading and writing the field coccur, /repo/interface.go:301 *)
Definition ec_occur (e : econt) : Z := match e with EC _ oc _ _ _ _ => oc end.
Definition set_occur (oc : Z) (e : econt) : econt :=
  match e with EC ct _ n p c1 c2 => EC ct oc n p c1 c2 end.

(* split at the first ':' as done at /repo/valid.go:22-27, dtd.go:64-68,
   tree.go:312-319: (prefix, local) *)
Fixpoint split_colon (s : str) : option (str * str) :=
  match s with
  | [] => None
  | c :: t => if c =? 58 then Some ([], t)
              else match split_colon t with
                   | Some (p, l) => Some (c :: p, l)
                   | None => None
                   end
  end.
Definition prefix_local (s : str) : str * str :=
  match split_colon s with Some pl => pl | None => ([], s) end.

(* /repo/valid.go:10-44 newElementContent (document.go:239-245) *)
Definition newElementContent (name : str) (ct : Z) : outcome gerr econt :=
  if ct =? ctElement then
    match name with
    | [] => Fail (Plain "ElementContent (element) must have name")
    | _ => let '(p, l) := prefix_local name in Ret (EC ct ocOnce l p None None)
    end
  else if (ct =? ctPCDATA) || (ct =? ctSeq) || (ct =? ctOr) then
    match name with
    | [] => Ret (EC ct ocOnce [] [] None None)
    | _ => Fail (Plain "ElementContent (element) must NOT have name")
    end
  else Fail (Plain "invalid element content type").

(* no code of /repo: a result that does not depend on the input *)
Definition plift {A} (o : outcome gerr A) : P A := fun l => (o, l).

(* the occurrence switch at 2686-2696 and 2780-2790 *)
Definition occurrence (e : econt) : P econt := (
  c <- ppeek ;;
  if c =? 63 then padvance 1 ;; pret (set_occur ocOpt e)
  else if c =? 42 then padvance 1 ;; pret (set_occur ocMult e)
  else if c =? 43 then padvance 1 ;; pret (set_occur ocPlus e)
  else pret e)%scan.

(* a name with its occurrence: 2675-2696, 2770-2790 *)
Definition nameLeaf : P econt := (
  elem <- pwrap parseName ;;
  e <- pwrap (plift (newElementContent elem ctElement)) ;;
  occurrence e)%scan.

(* The pointer structure that parseElementChildrenContentDeclPriv builds:
   [Leaf r]: retelem = r and no operator yet;
   [Chain ct oc spine]: retelem is the first operator of a chain linked by c2,
   whose c1 fields are [spine]; curelem is its last operator. *)
Inductive chain := Leaf (r : option econt) | Chain (ct : Z) (spine : list (option econt)).
Fixpoint build_spine (ct : Z) (spine : list (option econt)) (last : option econt) : option econt :=
  match spine with
  | [] => last
  | c1 :: t => Some (EC ct ocOnce [] [] c1 (build_spine ct t last))
  end.
(* retelem once curelem.c2 = last has been done (2794-2797) *)
Definition build (ch : chain) (last : option econt) : option econt :=
  match ch with
  | Leaf r => r
  | Chain ct spine => build_spine ct spine last
  end.
(* the closure createElementContent (2705-2737), after its separator check *)
Definition addOp (ct : Z) (ch : chain) (last : option econt) : chain :=
  match last with
  | None => Chain ct [build ch None]
  | Some x => match ch with
              | Chain ct' spine => Chain ct' (spine ++ [Some x])
              | Leaf _ => Chain ct [Some x]   (* not reached: last is set after the first operator *)
              end
  end.

(* the tail of parseElementChildrenContentDeclPriv (2798-2868).  For '*' and
   '+' the cursor is not advanced, so that every caller fails on that
   character: the occurrence rewriting of the operands (2822-2836, 2851-2865)
   is never seen and is left out.  For '+' retelem is dereferenced. *)
Definition closeGroup (ret : option econt) : P (option econt) := (
  padvance 1 ;;
  c <- ppeek ;;
  if c =? 63 then padvance 1 ;;
     pret (match ret with
           | Some e => Some (set_occur (if ec_occur e =? ocPlus then ocMult else ocOpt) e)
           | None => None
           end)
  else if c =? 42 then pret (match ret with Some e => Some (set_occur ocMult e) | None => None end)
  else if c =? 43 then match ret with
                       | Some e => pret (Some (set_occur (if ec_occur e =? ocOpt then ocMult else ocPlus) e))
                       | None => ppan
                       end
  else pret ret)%scan.

(* /repo/parserctx.go:2648-2869 parseElementChildrenContentDeclPriv; [n] is
   fuel.  In the case that starts with '(' the result of the recursive call is
   assigned to a new variable retelem, so that the outer one stays nil. *)
Fixpoint childrenDecl (n : nat) (depth : Z) {struct n} : P (option econt) :=
  match n with
  | O => poof
  | S n' =>
    (if 128 <? depth then pfail (Plain "depth too deep")
     else
       skipBlanks ;;
       c <- ppeek ;;
       ch <- (if c =? 40
              then padvance 1 ;; skipBlanks ;; pwrap (childrenDecl n' (depth + 1)) ;; skipBlanks ;; pret (Leaf None)
              else e <- nameLeaf ;; pret (Leaf (Some e))) ;;
       skipBlanks ;;
       childrenLoop n' depth 0 ch None)%scan
  end
with childrenLoop (n : nat) (depth : Z) (sep : Z) (ch : chain) (last : option econt) {struct n} : P (option econt) :=
  match n with
  | O => poof
  | S n' =>
    (d <- (fun l => (Ret (done l), l)) ;;
     if d then closeGroup (build ch last)
     else
       c <- ppeek ;;
       if c =? 41 then closeGroup (build ch last)
       else if negb ((c =? 44) || (c =? 124)) then pfailw "ErrElementContentNotFinished"
       else if negb (sep =? 0) && negb (sep =? c) then pfailw "separator expected"
       else
         padvance 1 ;;
         let ch' := addOp (if c =? 44 then ctSeq else ctOr) ch last in
         skipBlanks ;;
         c2 <- ppeek ;;
         last' <- (if c2 =? 40
                   then padvance 1 ;; skipBlanks ;; r <- pwrap (childrenDecl n' (depth + 1)) ;; skipBlanks ;; pret r
                   else e <- nameLeaf ;; pret (Some e)) ;;
         skipBlanks ;;
         childrenLoop n' depth c ch' last')%scan
  end.

(* the '|' loop of parseElementMixedContentDecl (2562-2596): [elem] is the
   last name read, [ret] the root.  From the second '|' on, an element content
   without a name is requested, which fails. *)
Fixpoint mixedLoop (n : nat) (ret : option econt) (elem : str) : P (option econt * str) :=
  match n with
  | O => poof
  | S n' =>
    (c <- ppeek ;;
     if negb (c =? 124) then pret (ret, elem)
     else
       padvance 1 ;;
       match elem with
       | [] =>
           skipBlanks ;;
           e <- pwrap parseName ;;
           skipBlanks ;;
           mixedLoop n' (Some (EC ctOr ocOnce [] [] ret None)) e
       | _ =>
           pwrap (plift (newElementContent [] ctElement)) ;; poof
       end)%scan
  end.

(* /repo/parserctx.go:2515-2619 parseElementMixedContentDecl *)
Definition mixedDecl (n : nat) : P (option econt) := (
  ok <- pconsume (s_ "#PCDATA") ;;
  if negb ok then pfailw "ErrPCDATARequired"
  else
    let pc := EC ctPCDATA ocOnce [] [] None None in
    c <- ppeek ;;
    if c =? 41 then
      padvance 1 ;;
      c2 <- ppeek ;;
      if c2 =? 42 then padvance 1 ;; pret (Some (set_occur ocMult pc)) else pret (Some pc)
    else
      r <- mixedLoop n (if (c =? 40) || (c =? 124) then Some pc else None) [] ;;
      let '(ret, elem) := r in
      fin <- (fun l => (Ret ((peekn 1 l =? 41) && (peekn 2 l =? 42)), l)) ;;
      if fin then
        padvance 2 ;;
        match elem with
        | [] => pret (match ret with Some e => Some (set_occur ocMult e) | None => None end)
        | _ =>
            c2 <- pwrap (plift (newElementContent elem ctElement)) ;;
            pret (match ret with
                  | Some (EC ct _ nm p c1 _) => Some (EC ct ocMult nm p c1 (Some c2))
                  | None => None
                  end)
        end
      else pret ret)%scan.

(* /repo/parserctx.go:2473-2513 parseElementContentDecl; ElementTypeVal,
   /repo/interface.go:272-278 *)
Definition UndefinedElementType : Z := 0.
Definition EmptyElementType : Z := 1.
Definition AnyElementType : Z := 2.
Definition MixedElementType : Z := 3.
Definition ElementElementType : Z := 4.
Definition elementContentDecl (n : nat) : P (option econt * Z) := (
  c <- ppeek ;;
  if negb (c =? 40) then pfailw "ErrOpenParenRequired"
  else
    padvance 1 ;;
    skipBlanks ;;
    mixed <- phas (s_ "#PCDATA") ;;
    if mixed
    then (ec <- pwrap (mixedDecl n) ;; skipBlanks ;; pret (ec, MixedElementType))
    else (ec <- pwrap (childrenDecl n 0) ;; skipBlanks ;; pret (ec, ElementElementType)))%scan.

(* /repo/parserctx.go:2356-2430 parseElementDecl up to the callback:
   (name, type, content) *)
Definition scanElementDecl (n : nat) : P (str * Z * option econt) := (
  ok <- pconsume (s_ "<!ELEMENT") ;;
  if negb ok then pfailw "ErrInvalidElementDecl"
  else
    c <- ppeek ;;
    if negb (isBlankCh c) then pfailw "ErrSpaceRequired"
    else
      skipBlanks ;;
      name <- pwrap parseName ;;
      c2 <- ppeek ;;
      if negb (isBlankCh c2) then pfailw "ErrSpaceRequired"
      else
        skipBlanks ;;
        r <- (em <- pconsume (s_ "EMPTY") ;;
              if em then pret (None, EmptyElementType)
              else an <- pconsume (s_ "ANY") ;;
                   if an then pret (None, AnyElementType)
                   else c3 <- ppeek ;;
                        if c3 =? 40 then pwrap (elementContentDecl n)
                        else pret (None, UndefinedElementType)) ;;
        skipBlanks ;;
        c4 <- ppeek ;;
        if negb (c4 =? 62) then pfailw "ErrGtRequired"
        else padvance 1 ;; pret (name, snd r, fst r))%scan.

(* ---- attribute types ---- *)
(* AttributeType and AttributeDefault, /repo/interface.go:49-73 *)
Definition AttrInvalid : Z := 0.
Definition AttrCDATA : Z := 1.
Definition AttrID : Z := 2.
Definition AttrIDRef : Z := 3.
Definition AttrIDRefs : Z := 4.
Definition AttrEntity : Z := 5.
Definition AttrEntities : Z := 6.
Definition AttrNmtoken : Z := 7.
Definition AttrNmtokens : Z := 8.
Definition AttrEnumeration : Z := 9.
Definition AttrNotation : Z := 10.
Definition DefInvalid : Z := 0.
Definition DefNone : Z := 1.
Definition DefRequired : Z := 2.
Definition DefImplied : Z := 3.
Definition DefFixed : Z := 4.

(* the loops of parseNotationType (3297-3314) and parseEnumerationType
   (3342-3359); the duplicate test looks into a map that is never filled *)
Fixpoint tokenLoop (n : nat) (tok : P str) (acc : list str) : P (list str) :=
  match n with
  | O => poof
  | S n' =>
    (name <- tok ;;
     skipBlanks ;;
     c <- ppeek ;;
     if negb (c =? 124) then pret (acc ++ [name])
     else padvance 1 ;; skipBlanks ;; tokenLoop n' tok (acc ++ [name]))%scan
  end.
Definition tokenList (n : nat) (tok : P str) (kstart kend : string) : P (list str) := (
  c <- ppeek ;;
  if negb (c =? 40) then pfailw kstart
  else padvance 1 ;; skipBlanks ;;
       enum <- tokenLoop n tok [] ;;
       c2 <- ppeek ;;
       if negb (c2 =? 41) then pfailw kend else padvance 1 ;; pret enum)%scan.
(* /repo/parserctx.go:3278-3321 *)
Definition parseNotationType (n : nat) : P (list str) :=
  tokenList n (por_else parseName (PErr (Plain "ErrNotationNameRequired"))) "ErrNotationNotStarted" "ErrNotationNotFinished".
(* /repo/parserctx.go:3323-3366 *)
Definition parseEnumerationType (n : nat) : P (list str) :=
  tokenList n parseNmtoken "ErrAttrListNotStarted" "ErrAttrListNotFinished".
(* /repo/parserctx.go:3378-3406 *)
Definition parseEnumeratedType (n : nat) : P (Z * list str) := (
  nt <- pconsume (s_ "NOTATION") ;;
  if nt then
    c <- ppeek ;;
    if negb (isBlankCh c) then pfailw "ErrSpaceRequired"
    else skipBlanks ;; enum <- parseNotationType n ;; pret (AttrNotation, enum)
  else enum <- parseEnumerationType n ;; pret (AttrEnumeration, enum))%scan.
(* /repo/parserctx.go:3449-3485 parseAttributeType: keywords in this order *)
Definition attrKeywords : list (str * Z) :=
  [(s_ "CDATA", AttrCDATA); (s_ "IDREFS", AttrIDRefs); (s_ "IDREF", AttrIDRef); (s_ "ID", AttrID);
   (s_ "ENTITY", AttrEntity); (s_ "ENTITIES", AttrEntities); (s_ "NMTOKENS", AttrNmtokens); (s_ "NMTOKEN", AttrNmtoken)].
Fixpoint tryKeywords (ks : list (str * Z)) (orelse : P (Z * list str)) : P (Z * list str) :=
  match ks with
  | [] => orelse
  | (k, t) :: ks' => (ok <- pconsume k ;; if ok then pret (t, []) else tryKeywords ks' orelse)%scan
  end.
Definition parseAttributeType (n : nat) : P (Z * list str) := tryKeywords attrKeywords (parseEnumeratedType n).

(* /repo/parserctx.go:2871-2898 parseEntityValueInternal *)
Definition parseEntityValueInternal (q : Z) : P str := fun l =>
  let run := takeW (fun c => isChar c && negb (c =? q)) l in
  (Ret (utf8 run), dropW (fun c => isChar c && negb (c =? q)) l).
(* /repo/parserctx.go:2992-3014 parseEntityValue: (literal, value).  The error
   of parseQuotedText (no closing quote) is overwritten; the literal is then
   what has been read. *)
Definition parseEntityValue : P (str * str) := (
  q <- ppeek ;;
  literal <- (if (q =? 34) || (q =? 39)
              then padvance 1 ;;
                   v <- parseEntityValueInternal q ;;
                   c <- ppeek ;;
                   (if c =? q then padvance 1 else pret tt) ;; pret v
              else pret []) ;;
  val <- pwrap (plift (decodeEntities literal)) ;;
  pret (literal, val))%scan.

End WithEnv.

(* What is assumed of the world outside /repo when a theorem asks for it. *)
Record env_ok (E : env) : Prop := {
  ok_eofr : eofr E = 0 \/ eofr E = RuneError;
  ok_beof : beof E = 0 \/ beof E = RuneError;
  (* Advance past the end leaves some suffix of the input, usually [] *)
  ok_over : forall n l, exists k, over E n l = skipn k l;
  (* unicode.IsLetter and friends on the characters the parser itself names *)
  ok_letter : forall c, 0 <= c < 128 -> isLetter E c = isAZ c;
  ok_letter_err : isLetter E RuneError = false;
  ok_digit : forall c, 0 <= c < 128 -> isDigit E c = isD c;
  ok_digit_err : isDigit E RuneError = false;
  ok_ext : forall c, 0 <= c < 128 -> isExtender E c = false;
  ok_ext_err : isExtender E RuneError = false;
  ok_lower : forall c, 0 <= c < 128 -> lower E c = if (65 <=? c) && (c <=? 90) then c + 32 else c;
  ok_utf8 : forall b, decode E E_UTF8 b = runes_of b;
  (* the order in which Go ranges over a map *)
  ok_permute : forall k l, Permutation (permute E k l) l
}.

(* /repo/encoding/encoding.go Load, and detectEncoding of /repo/parserctx.go. *)
From Verif Require Import Base Utf8.

(* The codecs of golang.org/x/text that Load returns, by name; the codecs
   themselves are not modelled. *)
Inductive codec :=
| E_UTF8
| E_EUCJP
| E_ShiftJIS
| E_ISO2022JP
| E_Big5
| E_EUCKR
| E_HZGB2312
| E_CodePage437
| E_CodePage866
| E_ISO8859_10
| E_ISO8859_13
| E_ISO8859_14
| E_ISO8859_15
| E_ISO8859_16
| E_ISO8859_2
| E_ISO8859_3
| E_ISO8859_4
| E_ISO8859_5
| E_ISO8859_6
| E_ISO8859_7
| E_ISO8859_8
| E_KOI8R
| E_KOI8U
| E_Macintosh
| E_MacintoshCyrillic
| E_Windows1250
| E_Windows1251
| E_Windows1252
| E_Windows1253
| E_Windows1254
| E_Windows1255
| E_Windows1256
| E_Windows1257
| E_Windows1258
| E_Windows874
| E_XUserDefined.

(* strings.ToLower: every rune mapped by unicode.ToLower (an oracle, [lower]),
   invalid bytes becoming U+FFFD. *)
Definition ToLower (lower : Z -> Z) (s : str) : str := utf8 (map lower (runes_of s)).

(* /repo/encoding/encoding.go:19-95 Load; None is the nil encoding *)
Definition load_table (n : str) : option codec :=
  if str_eqb n (s_ "utf8") || str_eqb n (s_ "utf-8") then Some E_UTF8
  else if str_eqb n (s_ "euc-jp") then Some E_EUCJP
  else if str_eqb n (s_ "shift_jis") || str_eqb n (s_ "shift-jis") || str_eqb n (s_ "shiftjis") || str_eqb n (s_ "cp932") then Some E_ShiftJIS
  else if str_eqb n (s_ "jis") || str_eqb n (s_ "iso-2022-jp") then Some E_ISO2022JP
  else if str_eqb n (s_ "big5") then Some E_Big5
  else if str_eqb n (s_ "euc-kr") then Some E_EUCKR
  else if str_eqb n (s_ "hz-gb2312") then Some E_HZGB2312
  else if str_eqb n (s_ "cp437") then Some E_CodePage437
  else if str_eqb n (s_ "cp866") then Some E_CodePage866
  else if str_eqb n (s_ "iso-8859-10") then Some E_ISO8859_10
  else if str_eqb n (s_ "iso-8859-13") then Some E_ISO8859_13
  else if str_eqb n (s_ "iso-8859-14") then Some E_ISO8859_14
  else if str_eqb n (s_ "iso-8859-15") then Some E_ISO8859_15
  else if str_eqb n (s_ "iso-8859-16") then Some E_ISO8859_16
  else if str_eqb n (s_ "iso-8859-2") then Some E_ISO8859_2
  else if str_eqb n (s_ "iso-8859-3") then Some E_ISO8859_3
  else if str_eqb n (s_ "iso-8859-4") then Some E_ISO8859_4
  else if str_eqb n (s_ "iso-8859-5") then Some E_ISO8859_5
  else if str_eqb n (s_ "iso-8859-6") then Some E_ISO8859_6
  else if str_eqb n (s_ "iso-8859-7") then Some E_ISO8859_7
  else if str_eqb n (s_ "iso-8859-8") then Some E_ISO8859_8
  else if str_eqb n (s_ "koi8r") then Some E_KOI8R
  else if str_eqb n (s_ "koir8u") then Some E_KOI8U
  else if str_eqb n (s_ "macintosh") then Some E_Macintosh
  else if str_eqb n (s_ "macintoshcyrillic") then Some E_MacintoshCyrillic
  else if str_eqb n (s_ "windows1250") then Some E_Windows1250
  else if str_eqb n (s_ "windows1251") then Some E_Windows1251
  else if str_eqb n (s_ "iso-8859-1") || str_eqb n (s_ "windows1252") then Some E_Windows1252
  else if str_eqb n (s_ "windows1253") then Some E_Windows1253
  else if str_eqb n (s_ "windows1254") then Some E_Windows1254
  else if str_eqb n (s_ "windows1255") then Some E_Windows1255
  else if str_eqb n (s_ "windows1256") then Some E_Windows1256
  else if str_eqb n (s_ "windows1257") then Some E_Windows1257
  else if str_eqb n (s_ "windows1258") then Some E_Windows1258
  else if str_eqb n (s_ "windows874") then Some E_Windows874
  else if str_eqb n (s_ "xuserdefined") then Some E_XUserDefined
  else None.
Definition Load (lower : Z -> Z) (name : str) : option codec := load_table (ToLower lower name).

(* ASCII behaviour of unicode.ToLower *)
Definition lower_ascii (c : Z) : Z := if (65 <=? c) && (c <=? 90) then c + 32 else c.

(* /repo/parserctx.go:229-239 the encoding names *)
Definition encUCS4BE := Eval vm_compute in s_ "ucs4be".
Definition encUCS4LE := Eval vm_compute in s_ "ucs4le".
Definition encUCS42143 := Eval vm_compute in s_ "ucs4_2143".
Definition encUCS43412 := Eval vm_compute in s_ "ucs4_3412".
Definition encEBCDIC := Eval vm_compute in s_ "ebcdic".
Definition encUTF8 := Eval vm_compute in s_ "utf8".
Definition encUTF16LE := Eval vm_compute in s_ "utf16le".
Definition encUTF16BE := Eval vm_compute in s_ "utf16be".

(* /repo/parserctx.go:241-253 the patterns *)
Definition patUCS4BE : str := [0; 0; 0; 60].
Definition patUCS4LE : str := [60; 0; 0; 0].
Definition patUCS42143 : str := [0; 0; 60; 0].
Definition patUCS43412 : str := [0; 60; 0; 0].
Definition patEBCDIC : str := [76; 111; 167; 148].
Definition patUTF16LE4B : str := [60; 0; 63; 0].
Definition patUTF16BE4B : str := [0; 60; 0; 63].
Definition patUTF8 : str := [239; 187; 191].
Definition patUTF16LE2B : str := [255; 254].
Definition patUTF16BE2B : str := [254; 255].
Definition patMaybeXMLDecl : str := [60; 63; 120; 109].

(* cur.Consume(p): skip p if the input starts with it *)
Definition consume (p s : str) : option str :=
  if has_prefix p s then Some (skipn (List.length p) s) else None.

(* /repo/parserctx.go:255-333 detectEncoding: the name and the remaining
   bytes, or None for the error (the cursor is then unmoved). *)
Definition detectEncoding (s : str) : option (str * str) :=
  match consume patUCS4BE s with Some r => Some (encUCS4BE, r) | None =>
  match consume patUCS4LE s with Some r => Some (encUCS4LE, r) | None =>
  match consume patUCS42143 s with Some r => Some (encUCS42143, r) | None =>
  match consume patUCS43412 s with Some r => Some (encUCS43412, r) | None =>
  if has_prefix patEBCDIC s then Some (encEBCDIC, s) else
  if has_prefix patMaybeXMLDecl s then Some (encUTF8, s) else
  match consume patUTF16LE4B s with Some r => Some (encUTF16LE, r) | None =>
  match consume patUTF16BE4B s with Some r => Some (encUTF16BE, r) | None =>
  match consume patUTF8 s with Some r => Some (encUTF8, r) | None =>
  match consume patUTF16BE2B s with Some r => Some (encUTF16BE, r) | None =>
  match consume patUTF16LE2B s with Some r => Some (encUTF16LE, r) | None =>
  None
  end end end end end end end end end.

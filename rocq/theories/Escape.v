(* The escaping functions of /repo/dump.go. *)
From Verif Require Import Base Utf8.

(* fmt.Sprintf("%X", r) for 0 <= r < 2^32: upper case hexadecimal without
   leading zeros (used at /repo/dump.go:111,171). *)
Definition hexdig (d : Z) : Z := if d <? 10 then 48 + d else 55 + d.

Fixpoint fmt_hex_fuel (n : nat) (r : Z) : str :=
  match n with
  | O => []
  | S n' => if r <? 16 then [hexdig r] else fmt_hex_fuel n' (r / 16) ++ [hexdig (r mod 16)]
  end.
Definition fmt_X (r : Z) : str := fmt_hex_fuel 8 r.

(* /repo/dump.go:55-64, the esc_* tables *)
Definition esc_quot := Eval vm_compute in s_ "&#34;".
Definition esc_amp := Eval vm_compute in s_ "&amp;".
Definition esc_lt := Eval vm_compute in s_ "&lt;".
Definition esc_gt := Eval vm_compute in s_ "&gt;".
Definition esc_tab := Eval vm_compute in s_ "&#9;".
Definition esc_nl := Eval vm_compute in s_ "&#10;".
Definition esc_cr := Eval vm_compute in s_ "&#13;".
Definition esc_fffd : str := [239; 191; 189].

(* /repo/dump.go:69-76 isInCharacterRange (with its 0xDF77) *)
Definition isInCharacterRange (r : Z) : bool :=
  (r =? 9) || (r =? 10) || (r =? 13)
  || ((32 <=? r) && (r <=? 57207))
  || ((57344 <=? r) && (r <=? 65533))
  || ((65536 <=? r) && (r <=? 1114111)).

(* fmt.Sprintf("&#x%X;", r) *)
Definition num_ref (r : Z) : str := [38; 35; 120] ++ fmt_X r ++ [59].

(* One turn of the loop of escapeAttrValue, /repo/dump.go:90-129: what is
   written for the rune [r] decoded from the bytes [bs] (width = length of
   [bs]).  The Go code copies unescaped stretches in one Write; the bytes
   written are the same. *)
Definition esc_attr1 (c : Z * str) : str :=
  let '(r, bs) := c in
  if r =? 34 then esc_quot
  else if r =? 38 then esc_amp
  else if r =? 60 then esc_lt
  else if r =? 62 then esc_gt
  else if r =? 10 then esc_nl
  else if r =? 13 then esc_cr
  else if r =? 9 then esc_tab
  else if negb ((32 <=? r) && (r <? 128)) && (r <? 224) then num_ref r
  else if negb (isInCharacterRange r) || ((r =? 65533) && (List.length bs =? 1)%nat) then esc_fffd
  else bs.

(* /repo/dump.go:78-135 escapeAttrValue; write errors of the io.Writer are
   not modelled (the output is the value). *)
Definition escapeAttrValue (s : str) : str := flat_map esc_attr1 (chunks s).

(* One turn of the loop of escapeText, /repo/dump.go:151-189. *)
Definition esc_text1 (nl : bool) (c : Z * str) : str :=
  let '(r, bs) := c in
  if r =? 38 then esc_amp
  else if r =? 60 then esc_lt
  else if r =? 62 then esc_gt
  else if r =? 10 then (if nl then esc_nl else bs)
  else if r =? 13 then esc_cr
  else if negb ((r =? 9) || ((32 <=? r) && (r <? 128))) && (r <? 224) then num_ref r
  else if negb (isInCharacterRange r) || ((r =? 65533) && (List.length bs =? 1)%nat) then esc_fffd
  else bs.

(* /repo/dump.go:140-195 escapeText *)
Definition escapeText (s : str) (nl : bool) : str := flat_map (esc_text1 nl) (chunks s).

(* strings.IndexByte(s, c) >= 0 *)
Definition has_byte (c : Z) (s : str) : bool := existsb (fun b => b =? c) s.

(* /repo/dump.go:19-52 dumpQuotedString.  The loop of lines 41-45 writes the
   stretches between double quotes and nothing for the quotes themselves. *)
Definition dumpQuotedString (s : str) : str :=
  if negb (has_byte 34 s) then [34] ++ s ++ [34]
  else if negb (has_byte 39 s) then [39] ++ s ++ [39]
  else [34] ++ filter (fun b => negb (b =? 34)) s ++ [34].

(* /repo/dump.go:395-432 dumpEntityContent *)
Definition dumpEntityContent (s : str) : str :=
  if negb (has_byte 37 s) then dumpQuotedString s
  else [34] ++ flat_map (fun b => if b =? 34 then s_ "&quot;"
                                  else if b =? 37 then s_ "&#x25;"
                                  else [b]) s ++ [34].

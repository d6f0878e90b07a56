(* unicode/utf8 of the Go standard library, as used by /repo/dump.go:91,152
   (utf8.DecodeRune), /repo/document.go:342-397 (strings.Reader.ReadRune,
   bytes.Buffer.WriteRune) and the parser's WriteRune calls. *)
From Verif Require Import Base.

Definition RuneError : Z := 65533. (* utf8.RuneError = U+FFFD *)

Definition cont (b : Z) : bool := (128 <=? b) && (b <=? 191).

(* Second-byte range of a three byte sequence, per Go's acceptRanges
   (E0: A0..BF, ED: 80..9F, others 80..BF). *)
Definition ok3 (b0 b1 : Z) : bool :=
  if b0 =? 224 then (160 <=? b1) && (b1 <=? 191)
  else if b0 =? 237 then (128 <=? b1) && (b1 <=? 159)
  else cont b1.

(* Second-byte range of a four byte sequence (F0: 90..BF, F4: 80..8F). *)
Definition ok4 (b0 b1 : Z) : bool :=
  if b0 =? 240 then (144 <=? b1) && (b1 <=? 191)
  else if b0 =? 244 then (128 <=? b1) && (b1 <=? 143)
  else cont b1.

(* utf8.DecodeRune: the rune and its width in bytes; (RuneError, 1) for an
   invalid encoding and (RuneError, 0) for no input. *)
Definition decode_rune (s : str) : Z * nat :=
  match s with
  | [] => (RuneError, 0%nat)
  | b0 :: t =>
    if b0 <? 128 then (b0, 1%nat)
    else if (194 <=? b0) && (b0 <=? 223) then
      match t with
      | b1 :: _ => if cont b1 then ((b0 - 192) * 64 + (b1 - 128), 2%nat) else (RuneError, 1%nat)
      | _ => (RuneError, 1%nat)
      end
    else if (224 <=? b0) && (b0 <=? 239) then
      match t with
      | b1 :: b2 :: _ =>
        if ok3 b0 b1 && cont b2
        then ((b0 - 224) * 4096 + (b1 - 128) * 64 + (b2 - 128), 3%nat)
        else (RuneError, 1%nat)
      | _ => (RuneError, 1%nat)
      end
    else if (240 <=? b0) && (b0 <=? 244) then
      match t with
      | b1 :: b2 :: b3 :: _ =>
        if ok4 b0 b1 && cont b2 && cont b3
        then ((b0 - 240) * 262144 + (b1 - 128) * 4096 + (b2 - 128) * 64 + (b3 - 128), 4%nat)
        else (RuneError, 1%nat)
      | _ => (RuneError, 1%nat)
      end
    else (RuneError, 1%nat)
  end.

(* utf8.ValidRune *)
Definition valid_rune (r : Z) : bool :=
  ((0 <=? r) && (r <? 55296)) || ((57344 <=? r) && (r <=? 1114111)).

(* utf8.EncodeRune / bytes.Buffer.WriteRune: anything invalid is written as
   U+FFFD. *)
Definition enc_raw (r : Z) : str :=
  if r <? 128 then [r]
  else if r <? 2048 then [192 + r / 64; 128 + r mod 64]
  else if r <? 65536 then [224 + r / 4096; 128 + (r / 64) mod 64; 128 + r mod 64]
  else [240 + r / 262144; 128 + (r / 4096) mod 64; 128 + (r / 64) mod 64; 128 + r mod 64].

Definition encode_rune (r : Z) : str :=
  if valid_rune r then enc_raw r else [239; 191; 189].

(* []byte(string(runes)) *)
Definition utf8 (rs : str) : str := flat_map encode_rune rs.

(* The successive results of utf8.DecodeRune over a byte string, each with the
   bytes it covers: the loop `for i := 0; i < len(s); { r, width :=
   utf8.DecodeRune(s[i:]); i += width; ... }` of /repo/dump.go:90-92,151-153
   with s[i:i+width] kept beside r.  Written by recursion on fuel = len(s);
   [chunks_unfold] (Utf8Proofs) shows the fuel is immaterial. *)
Fixpoint chunks_fuel (n : nat) (s : str) : list (Z * str) :=
  match n with
  | O => []
  | S n' =>
    match s with
    | [] => []
    | _ => let '(r, w) := decode_rune s in (r, firstn w s) :: chunks_fuel n' (skipn w s)
    end
  end.

Definition chunks (s : str) : list (Z * str) := chunks_fuel (List.length s) s.

(* The runes of a byte string, each invalid byte read as U+FFFD: Go's
   []rune(s), or a decoder that replaces malformed input. *)
Definition runes_of (s : str) : str := map fst (chunks s).

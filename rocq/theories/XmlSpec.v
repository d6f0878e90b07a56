(* Small independent specifications taken from the XML 1.0 recommendation,
   not from /repo.  They mention none of the model's functions. *)
From Verif Require Import Base.

(* [2] Char *)
Definition xml_char (c : Z) : bool :=
  (c =? 9) || (c =? 10) || (c =? 13)
  || ((32 <=? c) && (c <=? 55295))
  || ((57344 <=? c) && (c <=? 65533))
  || ((65536 <=? c) && (c <=? 1114111)).

(* digits of numeric character references *)
Definition dec_val (c : Z) : option Z :=
  if (48 <=? c) && (c <=? 57) then Some (c - 48) else None.
Definition hex_val (c : Z) : option Z :=
  if (48 <=? c) && (c <=? 57) then Some (c - 48)
  else if (65 <=? c) && (c <=? 70) then Some (c - 55)
  else if (97 <=? c) && (c <=? 102) then Some (c - 87)
  else None.

(* the number written in [s] up to ';', with at least one digit *)
Fixpoint number (base : Z) (val : Z -> option Z) (seen : bool) (acc : Z) (s : list Z)
  : option (Z * list Z) :=
  match s with
  | [] => None
  | c :: r =>
    if c =? 59 then (if seen then Some (acc, r) else None)
    else match val c with
         | Some d => number base val true (acc * base + d) r
         | None => None
         end
  end.

(* A reference, read after its '&': the character it stands for and what
   follows.  [66] CharRef must denote a Char; [68] EntityRef restricted to the
   five predefined entities of section 4.6. *)
Definition reference (s : list Z) : option (Z * list Z) :=
  match s with
  | 35 :: 120 :: r =>
    match number 16 hex_val false 0 r with
    | Some (n, r') => if xml_char n then Some (n, r') else None
    | None => None
    end
  | 35 :: r =>
    match number 10 dec_val false 0 r with
    | Some (n, r') => if xml_char n then Some (n, r') else None
    | None => None
    end
  | 108 :: 116 :: 59 :: r => Some (60, r)
  | 103 :: 116 :: 59 :: r => Some (62, r)
  | 97 :: 109 :: 112 :: 59 :: r => Some (38, r)
  | 97 :: 112 :: 111 :: 115 :: 59 :: r => Some (39, r)
  | 113 :: 117 :: 111 :: 116 :: 59 :: r => Some (34, r)
  | _ => None
  end.

(* The value of an attribute as a caller of the API writes it: a '&' begins a
   character reference, everything else stands for itself. *)
Inductive decodes : list Z -> list Z -> Prop :=
| dec_nil : decodes [] []
| dec_char r s t : r <> 38 -> decodes s t -> decodes (r :: s) (r :: t)
| dec_ref s x r t : reference (35 :: s) = Some (x, r) -> decodes r t -> decodes (38 :: 35 :: s) (x :: t).

(* Reading character data: references are replaced, '<' and characters outside
   Char are errors, everything else stands for itself. *)
Fixpoint read_text_fuel (n : nat) (s : list Z) : option (list Z) :=
  match n with
  | O => None
  | S n' =>
    match s with
    | [] => Some []
    | c :: r =>
      if c =? 38 then
        match reference r with
        | Some (x, r') => option_map (cons x) (read_text_fuel n' r')
        | None => None
        end
      else if (c =? 60) || negb (xml_char c) then None
      else option_map (cons c) (read_text_fuel n' r)
    end
  end.
Definition read_text (s : list Z) : option (list Z) := read_text_fuel (S (List.length s)) s.

(* Reading an attribute value between double quotes (section 3.3.3, CDATA
   attribute): references are replaced by their characters, literal white
   space becomes a space, '<', a double quote and illegal characters are errors. *)
Fixpoint read_attr_fuel (n : nat) (s : list Z) : option (list Z) :=
  match n with
  | O => None
  | S n' =>
    match s with
    | [] => Some []
    | c :: r =>
      if c =? 38 then
        match reference r with
        | Some (x, r') => option_map (cons x) (read_attr_fuel n' r')
        | None => None
        end
      else if (c =? 60) || (c =? 34) || negb (xml_char c) then None
      else if (c =? 9) || (c =? 10) || (c =? 13) then option_map (cons 32) (read_attr_fuel n' r)
      else option_map (cons c) (read_attr_fuel n' r)
    end
  end.
Definition read_attr (s : list Z) : option (list Z) := read_attr_fuel (S (List.length s)) s.

(* "Contains no raw markup": a string over an alphabet in which some
   characters are forbidden and '&' only ever begins a complete reference
   &amp; &lt; &gt; or a numeric one. *)
Definition dec_digits (s : list Z) : Prop := s <> [] /\ Forall (fun c => dec_val c <> None) s.
Definition hex_digits (s : list Z) : Prop := s <> [] /\ Forall (fun c => hex_val c <> None) s.

Inductive ref_body : list Z -> Prop :=
| rb_amp : ref_body (s_ "amp")
| rb_lt : ref_body (s_ "lt")
| rb_gt : ref_body (s_ "gt")
| rb_dec d : dec_digits d -> ref_body (35 :: d)
| rb_hex d : hex_digits d -> ref_body (35 :: 120 :: d).

Inductive no_raw_markup (forbidden : Z -> Prop) : list Z -> Prop :=
| nrm_nil : no_raw_markup forbidden []
| nrm_char c s : c <> 38 -> ~ forbidden c -> no_raw_markup forbidden s -> no_raw_markup forbidden (c :: s)
| nrm_ref b s : ref_body b -> no_raw_markup forbidden s -> no_raw_markup forbidden (38 :: b ++ 59 :: s).

(* Reading a quoted DTD literal whose body may use &quot; and &#x25; for the
   characters that cannot stand in it: [literal_body b s] says that the body
   [b] denotes [s]. *)
Inductive literal_body : list Z -> list Z -> Prop :=
| lb_nil : literal_body [] []
| lb_char c b s : c <> 38 -> literal_body b s -> literal_body (c :: b) (c :: s)
| lb_quot b s : literal_body b s -> literal_body (s_ "&quot;" ++ b) (34 :: s)
| lb_pct b s : literal_body b s -> literal_body (s_ "&#x25;" ++ b) (37 :: s).

(* Specification of content models, independent of the parser: productions [46]
   to [51] of XML 1.0 as abstract syntax, their texts and the sequences of child
   names they admit. *)
From Verif Require Import Base Utf8 XmlSpec Scan Heap.
From Verif Require Import Grammar.
Local Open Scope Z_scope.

Inductive occ := Once | Opt | Mult | Plus.
(* [48] cp, [49] choice, [50] seq: a name p:l (no prefix: p empty), or a group of
   particles with one separator, 44 (,) or 124 (|) *)
Inductive cp := Name (p l : list Z) (o : occ) | Group (sep : Z) (l : cps) (o : occ)
with cps := One (c : cp) | More (c : cp) (l : cps).

Definition sign (o : occ) : list Z :=
  match o with Once => [] | Opt => [63] | Mult => [42] | Plus => [43] end.
Inductive text : cp -> list Z -> Prop :=
| tx_name p l o : text (Name p l o) (qname p l ++ sign o)
| tx_group sep l o t : texts sep l t -> text (Group sep l o) ([40] ++ t ++ [41] ++ sign o)
with texts : Z -> cps -> list Z -> Prop :=
| txs_one sep c a t b : blanks a -> text c t -> blanks b -> texts sep (One c) (a ++ t ++ b)
| txs_more sep c l a t b r : blanks a -> text c t -> blanks b -> texts sep l r ->
    texts sep (More c l) (a ++ t ++ b ++ [sep] ++ r).

(* languages over names *)
Definition word := list str.
Definition language := word -> Prop.
Inductive star (L : language) : language :=
| star_nil : star L []
| star_app u v : L u -> star L v -> star L (u ++ v).
Definition seq (A B : language) : language := fun w => exists u v, w = u ++ v /\ A u /\ B v.
Definition occurs (o : occ) (L : language) : language := fun w =>
  match o with
  | Once => L w
  | Opt => w = [] \/ L w
  | Mult => star L w
  | Plus => seq L (star L) w
  end.
Fixpoint lang (c : cp) : language :=
  match c with
  | Name p l o => occurs o (fun w => w = [utf8 (qname p l)])
  | Group sep l o => occurs o (langs sep l)
  end
with langs (sep : Z) (l : cps) : language :=
  match l with
  | One c => lang c
  | More c r => if sep =? 44 then seq (lang c) (langs sep r) else fun w => lang c w \/ langs sep r w
  end.

(* the sequences that a stored model admits; a missing operand admits none *)
Definition occ_of (oc : Z) : occ :=
  if oc =? ocOpt then Opt else if oc =? ocMult then Mult else if oc =? ocPlus then Plus else Once.
Fixpoint mlang (e : econt) : language :=
  match e with
  | EC ct oc name prefix c1 c2 =>
      let sub o := match o with Some x => mlang x | None => fun _ => False end in
      occurs (occ_of oc)
        (if ct =? ctElement then fun w => w = [prefixed prefix name]
         else if ct =? ctPCDATA then fun w => w = []
         else if ct =? ctSeq then seq (sub c1) (sub c2)
         else fun w => sub c1 w \/ sub c2 w)
  end.

(* The expressions that the parser reads as what they say: names are legal, a
   group starts with a name, and occurs once or optionally (C43_star_refuted,
   C43_first_group_refuted), nesting is at most 128; and not (a* )?
   (C43_optional_refuted). *)
Section Names.
Variable E : env.
Definition first (l : cps) : cp := match l with One c => c | More c _ => c end.
Fixpoint fits (d : nat) (c : cp) : Prop :=
  match c with
  | Name p l _ => qnamed E p l /\ Z.of_nat (List.length (qname p l)) <= 50000
  | Group sep l o =>
      match d with
      | O => False
      | Datatypes.S d' => (sep = 44 \/ sep = 124) /\ (o = Once \/ o = Opt) /\ (exists p n q, first l = Name p n q) /\
               (o = Opt -> forall p n, l <> One (Name p n Mult)) /\ allfit d' l
      end
  end
with allfit (d : nat) (l : cps) : Prop :=
  match l with
  | One c => fits d c
  | More c r => fits d c /\ allfit d r
  end.
End Names.
Definition max_nesting : nat := 129.

(* [45] the declaration of an element, with [46] contentspec and [51] Mixed.  Of
   the mixed models the parser reads those with at most one name, no blank
   before | or before the ) of the others (C43_mixed_refuted). *)
Inductive spec := Empty | Any | Text (starred : bool) | TextOr (p l : list Z) | Children (c : cp).
Inductive spec_text : spec -> list Z -> Prop :=
| st_empty : spec_text Empty (s_ "EMPTY")
| st_any : spec_text Any (s_ "ANY")
| st_text st b : blanks b -> spec_text (Text st) ([40] ++ b ++ s_ "#PCDATA" ++ [41] ++ if st then [42] else [])
| st_or p l a b c : blanks a -> blanks b -> blanks c ->
    spec_text (TextOr p l) ([40] ++ a ++ s_ "#PCDATA|" ++ b ++ qname p l ++ c ++ [41; 42])
| st_children sep l o t : text (Group sep l o) t -> spec_text (Children (Group sep l o)) t.
Definition spec_fits (E : env) (s : spec) : Prop :=
  match s with
  | TextOr p l => qnamed E p l /\ Z.of_nat (List.length (qname p l)) <= 50000
  | Children c => fits E max_nesting c
  | _ => True
  end.
(* the sequences of child elements it admits; text is not counted *)
Definition spec_lang (s : spec) : language :=
  match s with
  | Empty | Text _ => fun w => w = []
  | Any => fun _ => True
  | TextOr p l => star (fun w => w = [utf8 (qname p l)])
  | Children c => lang c
  end.
Inductive decl_text (p l : list Z) (s : spec) : list Z -> Prop :=
| dc a b t c : a <> [] -> blanks a -> b <> [] -> blanks b -> spec_text s t -> blanks c ->
    decl_text p l s (s_ "<!ELEMENT" ++ a ++ qname p l ++ b ++ t ++ c ++ [62]).
(* what is stored: type and model *)
Definition stored_lang (typ : Z) (m : option econt) : language :=
  if typ =? AnyElementType then fun _ => True
  else if typ =? EmptyElementType then fun w => w = []
  else match m with Some e => mlang e | None => fun _ => False end.
(* the declarations that can be written and read again (C43_star_refuted,
   C43_mixed_refuted) *)
Definition rereads (s : spec) : Prop :=
  match s with
  | TextOr _ _ => False
  | Children (Group _ (One (Name _ _ k)) _) => k = Once \/ k = Opt
  | _ => True
  end.

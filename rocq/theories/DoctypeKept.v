(* The documents with declarations that can be written and read back:
   specification, on top of Tidy.v (trees) and DoctypeNodes.v (declarations). *)
From Verif Require Import Base Utf8 Scan Parser Content Heap Xml Mirror.
From Verif Require Import Doctype DoctypeNodes.
From Verif Require Import Grammar.
Local Open Scope Z_scope.

Section Kept.
Variable E : env.

(* a default value, which is written verbatim between quotes, must stand for
   itself there *)
Definition verbatim (v : str) : Prop := exists q lit, (q = 34 \/ q = 39) /\ attlit q lit v /\ v = utf8 lit.
(* [m] is the content model that the parser stores for some text of the
   declaration (C43) *)
Definition stored (p l : list Z) (sp : spec) (m : option econt) : Prop :=
  exists t, decl_text p l sp t /\
    forall n after, (List.length t <= n)%nat -> scanElementDecl E n (t ++ after) = (Ret (utf8 (qname p l), spec_code sp, m), after).
(* the nodes of declarations that are written so that they can be read: all
   entities with literal values; elements but for the content models that are
   refused (C43_star_refuted, C43_mixed_refuted); attributes but for the type
   ENTITIES and for defaults that do not stand for themselves (C48) *)
Inductive kept : single -> data -> Prop :=
| kp_entity (b : bool) n v q lit : ncname E n -> q = 34 \/ q = 39 -> entlit E q lit v ->
    kept (OneEntity b n v)
      (Heap.DEntity (utf8 n) (if b then InternalParameterEntity else InternalGeneralEntity) [] [] (utf8 v) (utf8 lit))
| kp_element p l sp m : pname E p l -> spec_fits E sp -> rereads sp -> stored p l sp m ->
    kept (OneElement p l sp) (DElemDecl (utf8 l) (utf8 p) (spec_code sp) m)
| kp_attribute p l a : pname E p l -> ncname E (ad_name a) -> ad_type a <> ENTITIES ->
    match ad_default a with
    | Fixed v | Default v => typed (ad_type a) v <> [] /\ verbatim (typed (ad_type a) v)
    | _ => True
    end ->
    kept (OneAttribute p l a)
      (DAttrDecl (utf8 (qname p l)) (utf8 (ad_name a)) [] (type_code (ad_type a)) (default_code (ad_default a))
         (default_value (ad_type a) (ad_default a)) []).

(* the local part of a qualified name *)
Fixpoint after_colon (s : str) : option str :=
  match s with
  | [] => None
  | c :: t => if c =? 58 then Some t else after_colon t
  end.
Definition local_part (s : str) : str := match after_colon s with Some t => t | None => s end.

(* Attributes under declarations: tokenised values have been normalised, and
   nothing is there that the parser would get wrong: types are found by local
   names (C59_prefix_refuted), also for namespace declarations, and defaults
   are reported for attributes that are there (C58_specified_refuted). *)
Definition calm_att (ds : list decl) (element local : str) (x : str * str) : Prop :=
  tokenised ds local (local_part (fst x)) = tokenised ds element (fst x) /\
  (tokenised ds element (fst x) = true -> spaced (tokens (snd x)) = snd x) /\
  ~ In (fst x) (map fst (defaults ds element)).
Definition calm_def (ds : list decl) (local : str) (d : nspair) : Prop :=
  tokenised ds local (match fst d with [] => s_ "xmlns" | p => p end) = false.
Inductive calm (ds : list decl) : xnode -> Prop :=
| ca_elem nm sp defs atts kids : Forall (calm_att ds (quoted_name sp nm) nm) atts -> Forall (calm_def ds nm) defs ->
    Forall (calm ds) kids -> calm ds (XElem nm sp defs atts kids)
| ca_text s : calm ds (XText s)
| ca_comment s : calm ds (XComment s).
End Kept.

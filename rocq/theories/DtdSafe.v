(* No panic, document type declarations included: NoPanic.v for inputs that
   may have one, provided the constructs on which the code does panic are
   absent. *)
From Verif Require Import Base Utf8 Utf8Proofs Encoding XmlSpec EscapeProofs Scan ScanProofs Parser Effects LexProofs Grammar Loose LooseLex NoPanic.
From Coq Require Import ZifyBool.

(* ---- specification: what must not occur in the input ---- *)
Definition hexdigit (c : Z) : Prop := hex_val c <> None.
Definition quote (c : Z) : Prop := c = 34 \/ c = 39.
(* U+FFFD is legal XML but the parser takes it for the end of a text *)
Definition text_char (c : Z) : bool := xml_char c && negb (c =? 65533).
(* what ends an attribute value: its quote, '<', an illegal character or the
   end of the input *)
Definition ends (q : Z) (l : list Z) : Prop :=
  match l with [] => True | c :: _ => c = q \/ c = 60 \/ text_char c = false end.
(* t, read after an ampersand, is a character reference whose number is 32
   (modulo 2^32, which is how the parser computes), with rest s *)
Definition space_ref (t s : list Z) : Prop := exists v, v mod 4294967296 = 32 /\
  ((exists u, t = 35 :: u /\ number 10 dec_val false 0 u = Some (v, s)) \/
   (exists u, t = 35 :: 120 :: u /\ number 16 hex_val false 0 u = Some (v, s))).
(* l begins with k white space characters and references to space, some of
   them references iff b, followed by r *)
Inductive blank_run : bool -> nat -> list Z -> list Z -> Prop :=
| br_nil r : blank_run false 0 r r
| br_blank b k c l r : In c [32; 13; 10; 9] -> blank_run b k l r -> blank_run b (Datatypes.S k) (c :: l) r
| br_ref b k t s r : space_ref t s -> blank_run b k s r -> blank_run true (Datatypes.S k) (38 :: t) r.
(* l begins where a character reference would be cut off *)
Definition cut (l : list Z) : Prop := match l with [] => True | c :: _ => quote c \/ text_char c = false end.
(* at no place of the input there is *)
Definition tame (l : list Z) : Prop := forall pre suf, l = pre ++ suf ->
  (* a ')' followed by a '+' *)
  (forall r, suf <> 41 :: 43 :: r) /\
  (* a character reference cut off before its ';' *)
  (forall x d r, suf = 38 :: 35 :: x ++ d ++ r -> x = [] \/ x = [120] -> Forall hexdigit d -> ~ cut r) /\
  (* a literal of white space and references to space, with a reference in it *)
  (forall q l k r, suf = q :: l -> quote q -> blank_run true k l r -> ~ ends q r) /\
  (* after white space, a literal of white space and references to space *)
  (forall w q l b k r, suf = w :: q :: l -> In w [32; 13; 10; 9] -> quote q -> ~ blank_run b (Datatypes.S k) l (q :: r)).

Lemma tame_suffix : forall l l', tame l -> suffix l' l -> tame l'.
Proof. intros l l' Ht (p & ->) pre suf ->. apply (Ht (p ++ pre)). rewrite app_assoc; auto. Qed.

Section D.
Variable E : env.
Hypothesis OK : env_ok E.

(* ---- scanners ---- *)
Definition psafe {A} (p : P A) : Prop := forall l, tame l -> fst (p l) <> Pan.
Lemma psafe_np : forall A (p : P A), pnp p -> psafe p.
Proof. intros A p Hp l _. apply Hp. Qed.
Lemma psafe_bind : forall A B (p : P A) (f : A -> P B), psafe p -> psuf p -> (forall a, psafe (f a)) -> psafe (pbind p f).
Proof.
  intros A B p f Hp Hs Hf l Hl. specialize (Hp l Hl). specialize (Hs l). unfold pbind.
  destruct (p l) as [[a|e| |] l']; cbn [fst snd] in *; try discriminate; [|congruence]. apply Hf. eapply tame_suffix; eauto.
Qed.
Lemma psafe_wrap : forall A (p : P A), psafe p -> psafe (pwrap p).
Proof. intros A p Hp l Hl. unfold pwrap. specialize (Hp l Hl). destruct (p l) as [[a|e| |] l']; cbn in *; congruence. Qed.
Lemma psafe_try : forall A (p : P A), psafe p -> psafe (ptry p).
Proof. intros A p Hp l Hl. unfold ptry. specialize (Hp l Hl). destruct (p l) as [[a|e| |] l']; cbn in *; congruence. Qed.

Lemma newEC_np : forall n t, newElementContent n t <> Pan.
Proof.
  intros n t. unfold newElementContent. destruct (_ =? _); [destruct n; [discriminate|]; destruct (prefix_local _); discriminate|].
  destruct (_ || _); [destruct n; discriminate|discriminate].
Qed.
Lemma pnp_lift : forall A (o : outcome gerr A), o <> Pan -> pnp (plift o).
Proof. intros A o Ho l. exact Ho. Qed.
Lemma pnp_occ : forall e, pnp (occurrence E e).
Proof. intros e l. unfold occurrence, pbind, ppeek, padvance, pret. repeat (destruct (_ =? _); [discriminate|]). discriminate. Qed.
Lemma pnp_leaf : pnp (nameLeaf E).
Proof.
  unfold nameLeaf. apply pnp_bind; [apply pnp_wrap, pnp_scanName|]. intros nm. apply pnp_bind; [apply pnp_wrap, pnp_lift, newEC_np|]. intros e. apply pnp_occ.
Qed.
(* a group is closed at the end of the input or at ')' *)
Lemma close_np : forall r l, tame l -> (l = [] \/ exists t, l = 41 :: t) -> fst (closeGroup E r l) <> Pan.
Proof.
  intros r l Hl Hc. unfold closeGroup, pbind, padvance, ppeek, pret.
  assert (Hp : peek E (advance E 1 l) <> 43).
  { destruct Hc as [->|(t & ->)].
    - unfold advance. cbn [List.length Nat.leb]. destruct (ok_over E OK 1 []) as (k & ->). rewrite skipn_nil. cbn. destruct (ok_eofr E OK) as [e|e]; rewrite e; discriminate.
    - rewrite advance_1. intros Hp. destruct (Hl [] _ eq_refl) as (A & _). destruct t as [|c t].
      + cbn in Hp. destruct (ok_eofr E OK) as [e|e]; rewrite e in Hp; discriminate.
      + cbn in Hp. subst c. eapply A; reflexivity. }
  destruct (_ =? 63); [discriminate|]. destruct (_ =? 42); [discriminate|]. destruct (Z.eqb_spec (peek E (advance E 1 l)) 43); [congruence|discriminate].
Qed.
Lemma psafe_children : forall n, (forall d, psafe (childrenDecl E n d)) /\ (forall d s c l, psafe (childrenLoop E n d s c l)).
Proof.
  induction n as [|n [IH1 IH2]]; split; intros; cbn [childrenDecl childrenLoop]; try (intros ? _; discriminate).
  - destruct (_ <? _); [intros ? _; discriminate|].
    apply psafe_bind; [intros ? _; discriminate|apply psuf_skip|]. intros _.
    apply psafe_bind; [intros ? _; discriminate|apply psuf_peek|]. intros c.
    apply psafe_bind.
    + destruct (c =? 40).
      * apply psafe_bind; [intros ? _; discriminate|apply psuf_advance; auto|]. intros _.
        apply psafe_bind; [intros ? _; discriminate|apply psuf_skip|]. intros _.
        apply psafe_bind; [apply psafe_wrap, IH1|apply psuf_wrap, psuf_childrenDecl; auto|]. intros _.
        apply psafe_bind; [intros ? _; discriminate|apply psuf_skip|]. intros _. intros ? _; discriminate.
      * apply psafe_bind; [apply psafe_np, pnp_leaf|apply psuf_leaf; auto|]. intros e ? _; discriminate.
    + destruct (c =? 40).
      * apply psuf_bind; [apply psuf_advance; auto|]. intros _. apply psuf_bind; [apply psuf_skip|]. intros _.
        apply psuf_bind; [apply psuf_wrap, psuf_childrenDecl; auto|]. intros _. apply psuf_bind; [apply psuf_skip|]. intros _. apply psuf_ret.
      * apply psuf_bind; [apply psuf_leaf; auto|]. intros; apply psuf_ret.
    + intros ch. apply psafe_bind; [intros ? _; discriminate|apply psuf_skip|]. intros _. apply IH2.
  - intros l0 Hl0. unfold pbind at 1. destruct (done l0) eqn:Hd.
    { apply close_np; auto. left. destruct l0; [auto|discriminate]. }
    unfold pbind at 1, ppeek. destruct (Z.eqb_spec (peek E l0) 41) as [H41|_].
    { apply close_np; auto. right. destruct l0 as [|x t]; [discriminate|]. cbn in H41. subst x. eauto. }
    destruct (negb _); [discriminate|]. destruct (_ && _); [discriminate|].
    revert l0 Hl0 Hd. intros l0 Hl0 _. generalize (peek E l0). intros c0. revert l0 Hl0.
    match goal with |- forall l0, tame l0 -> fst (?m l0) <> Pan => change (psafe m) end.
    apply psafe_bind; [intros ? _; discriminate|apply psuf_advance; auto|]. intros _. cbv zeta.
    apply psafe_bind; [intros ? _; discriminate|apply psuf_skip|]. intros _.
    apply psafe_bind; [intros ? _; discriminate|apply psuf_peek|]. intros c2.
    apply psafe_bind.
    + destruct (c2 =? 40).
      * apply psafe_bind; [intros ? _; discriminate|apply psuf_advance; auto|]. intros _.
        apply psafe_bind; [intros ? _; discriminate|apply psuf_skip|]. intros _.
        apply psafe_bind; [apply psafe_wrap, IH1|apply psuf_wrap, psuf_childrenDecl; auto|]. intros r.
        apply psafe_bind; [intros ? _; discriminate|apply psuf_skip|]. intros _. intros ? _; discriminate.
      * apply psafe_bind; [apply psafe_np, pnp_leaf|apply psuf_leaf; auto|]. intros e ? _; discriminate.
    + destruct (c2 =? 40).
      * apply psuf_bind; [apply psuf_advance; auto|]. intros _. apply psuf_bind; [apply psuf_skip|]. intros _.
        apply psuf_bind; [apply psuf_wrap, psuf_childrenDecl; auto|]. intros r. apply psuf_bind; [apply psuf_skip|]. intros _. apply psuf_ret.
      * apply psuf_bind; [apply psuf_leaf; auto|]. intros; apply psuf_ret.
    + intros last'. apply psafe_bind; [intros ? _; discriminate|apply psuf_skip|]. intros _. apply IH2.
Qed.
Ltac nstep := first
  [ assumption | apply pnp_ret | apply pnp_fail | apply pnp_fun | apply pnp_consume | apply pnp_scanName | apply pnp_nmtoken | apply pnp_lift, newEC_np
  | match goal with
    | |- forall _, _ => intro
    | |- pnp (pbind _ _) => apply pnp_bind
    | |- pnp (pwrap _) => apply pnp_wrap
    | |- pnp (ptry _) => apply pnp_try
    | |- pnp (por_else _ _) => apply pnp_else
    | |- pnp (pfailw _) => apply pnp_fail
    | |- pnp poof => intros ?; discriminate
    | |- pnp (if ?b then _ else _) => destruct b
    | |- pnp (match ?x with _ => _ end) => destruct x
    | |- pnp (let _ := _ in _) => cbv zeta
    end ].
Lemma pnp_mixedLoop : forall n r e, pnp (mixedLoop E n r e).
Proof. induction n as [|n IH]; intros r e; cbn [mixedLoop]; [intros ?; discriminate|]. repeat nstep. apply IH. Qed.
Lemma pnp_mixed : forall n, pnp (mixedDecl E n).
Proof. intros n. unfold mixedDecl. repeat first [apply pnp_mixedLoop | nstep]. Qed.
Lemma psafe_content : forall n, psafe (elementContentDecl E n).
Proof.
  intros n. unfold elementContentDecl. apply psafe_bind; [intros ? _; discriminate|apply psuf_peek|]. intros c. destruct (negb _); [intros ? _; discriminate|].
  apply psafe_bind; [intros ? _; discriminate|apply psuf_advance; auto|]. intros _. apply psafe_bind; [intros ? _; discriminate|apply psuf_skip|]. intros _.
  apply psafe_bind; [intros ? _; discriminate|apply psuf_has|]. intros [|].
  - apply psafe_np. repeat first [apply pnp_mixed | nstep].
  - apply psafe_bind; [apply psafe_wrap, psafe_children|apply psuf_wrap, psuf_childrenDecl; auto|]. intros ec. apply psafe_np. repeat nstep.
Qed.
Lemma psafe_elementDecl : forall n, psafe (scanElementDecl E n).
Proof.
  intros n. unfold scanElementDecl. apply psafe_bind; [apply psafe_np, pnp_consume|apply psuf_consume|]. intros ok. destruct (negb ok); [intros ? _; discriminate|].
  apply psafe_bind; [intros ? _; discriminate|apply psuf_peek|]. intros c. destruct (negb _); [intros ? _; discriminate|].
  apply psafe_bind; [intros ? _; discriminate|apply psuf_skip|]. intros _.
  apply psafe_bind; [apply psafe_np, pnp_wrap, pnp_scanName|apply psuf_wrap, psuf_name; auto|]. intros name.
  apply psafe_bind; [intros ? _; discriminate|apply psuf_peek|]. intros c2. destruct (negb _); [intros ? _; discriminate|].
  apply psafe_bind; [intros ? _; discriminate|apply psuf_skip|]. intros _.
  apply psafe_bind.
  - apply psafe_bind; [apply psafe_np, pnp_consume|apply psuf_consume|]. intros [|]; [intros ? _; discriminate|].
    apply psafe_bind; [apply psafe_np, pnp_consume|apply psuf_consume|]. intros [|]; [intros ? _; discriminate|].
    apply psafe_bind; [intros ? _; discriminate|apply psuf_peek|]. intros c3. destruct (_ =? _); [apply psafe_wrap, psafe_content|intros ? _; discriminate].
  - apply psuf_bind; [apply psuf_consume|]. intros [|]; [apply psuf_ret|]. apply psuf_bind; [apply psuf_consume|]. intros [|]; [apply psuf_ret|].
    apply psuf_bind; [apply psuf_peek|]. intros c3. destruct (_ =? _); [apply psuf_wrap, psuf_content; auto|apply psuf_ret].
  - intros r. apply psafe_np. repeat nstep.
Qed.
Lemma pnp_tokenLoop : forall n tok acc, pnp tok -> pnp (tokenLoop E n tok acc).
Proof. induction n as [|n IH]; intros tok acc Ht; cbn [tokenLoop]; [intros ?; discriminate|]. repeat nstep. apply IH; auto. Qed.
Lemma pnp_tokenList : forall n tok a b, pnp tok -> pnp (tokenList E n tok a b).
Proof. intros n tok a b Ht. unfold tokenList. repeat first [apply pnp_tokenLoop; assumption | nstep]. Qed.
Lemma pnp_enumerated : forall n, pnp (parseEnumeratedType E n).
Proof.
  intros n. unfold parseEnumeratedType, parseNotationType, parseEnumerationType.
  repeat first [apply pnp_tokenList; first [apply pnp_nmtoken | apply pnp_else, pnp_scanName] | nstep].
Qed.
Lemma pnp_attrType : forall n, pnp (parseAttributeType E n).
Proof.
  intros n. unfold parseAttributeType. generalize attrKeywords. induction l as [|[k t] ks IH]; cbn [tryKeywords]; [apply pnp_enumerated|].
  apply pnp_bind; [apply pnp_consume|]. intros [|]; [apply pnp_ret|exact IH].
Qed.

(* ---- entity values ---- *)
Definition acc_hex (acc : Z -> Z -> option Z) : Prop := forall v c x, acc v c = Some x -> hexdigit c.
Lemma accDec_hex : acc_hex accDec.
Proof. intros v c x Hx. unfold accDec in Hx. unfold hexdigit, hex_val. destruct ((48 <=? c) && (c <=? 57)); [discriminate|discriminate]. Qed.
Lemma accHex_hex : acc_hex accHex.
Proof.
  intros v c x Hx. unfold accHex in Hx. unfold hexdigit, hex_val. destruct ((48 <=? c) && (c <=? 57)); [discriminate|].
  destruct ((97 <=? c) && (c <=? 102)); [destruct ((65 <=? c) && (c <=? 70)); discriminate|]. destruct ((65 <=? c) && (c <=? 70)); [discriminate|discriminate].
Qed.
Lemma hexdigit_ascii : forall c, hexdigit c -> 48 <= c < 128.
Proof. intros c Hc. unfold hexdigit, hex_val in Hc. destruct ((48 <=? c) && (c <=? 57)) eqn:A; [lia|]. destruct ((65 <=? c) && (c <=? 70)) eqn:B; [lia|]. destruct ((97 <=? c) && (c <=? 102)) eqn:C; [lia|congruence]. Qed.
(* the reference in t either ends within t or t is nothing but digits *)
Lemma scr_form : forall acc, acc_hex acc -> forall t v,
  match scrLoop acc v (utf8 t) with
  | Pan => Forall hexdigit t
  | Ret (_, rest) => exists t', rest = utf8 t' /\ suffix t' t
  | _ => True
  end.
Proof.
  intros acc Ha. induction t as [|c t IH]; intros v; cbn [utf8 flat_map]; [constructor|].
  change (flat_map encode_rune t) with (utf8 t). destruct (encode_cases c) as [[-> Hc]|Hh].
  - cbn [app scrLoop]. destruct (c =? 59); [exists t; split; [auto|exists [c]; auto]|].
    destruct (acc v c) as [x|] eqn:Hx; [|exact I]. destruct (_ <? _); [exact I|].
    specialize (IH x). destruct (scrLoop acc x (utf8 t)) as [[z rest]| | |]; auto.
    + destruct IH as (t' & -> & Hs). exists t'. split; [auto|]. apply suffix_cons; auto.
    + constructor; [eapply Ha; eauto|auto].
  - destruct (encode_rune c) as [|b bs] eqn:He; [exfalso; eapply encode_nonempty; eauto|]. inversion Hh; subst.
    cbn [app scrLoop]. destruct (Z.eqb_spec b 59); [lia|]. destruct (acc v b) as [x|] eqn:Hx; [|exact I].
    apply Ha in Hx. apply hexdigit_ascii in Hx. lia.
Qed.
(* a reference begun in t does not make t end before its ';' *)
Definition refs_end (t : list Z) : Prop := forall pre x d, t = pre ++ 38 :: 35 :: x ++ d -> x = [] \/ x = [120] -> ~ Forall hexdigit d.
Lemma scref_np : forall t, refs_end (38 :: 35 :: t) ->
  match parseStringCharRef (utf8 (38 :: 35 :: t)) with
  | Pan => False
  | Ret (_, rest) => exists t', rest = utf8 t' /\ suffix t' t
  | _ => True
  end.
Proof.
  intros t Hr. unfold parseStringCharRef. change (utf8 (38 :: 35 :: t)) with (38 :: 35 :: utf8 t).
  change (has_prefix (s_ "&#") (38 :: 35 :: utf8 t)) with true. cbn [negb skipn].
  assert (H0 : t <> []). { intros ->. apply (Hr [] [] []); auto. }
  assert (Hd : ~ Forall hexdigit t) by (apply (Hr [] [] t); auto).
  destruct t as [|c t]; [congruence|]. destruct (encode_cases c) as [[He Hc]|Hh].
  - assert (Hu : utf8 (c :: t) = c :: utf8 t) by (unfold utf8; cbn [flat_map]; rewrite He; reflexivity). rewrite Hu. rewrite <- Hu.
    destruct (Z.eqb_spec c 120) as [->|_].
    + pose proof (scr_form accHex accHex_hex t 0) as X. destruct (scrLoop accHex 0 (utf8 t)) as [[z rest]| | |]; auto.
      * destruct X as (t' & -> & Hs). destruct (isChar z); [|exact I]. exists t'. split; [auto|apply suffix_cons; auto].
      * apply (Hr [] [120] t); auto.
    + pose proof (scr_form accDec accDec_hex (c :: t) 0) as X. destruct (scrLoop accDec 0 (utf8 (c :: t))) as [[z rest]| | |]; auto.
      destruct X as (t' & -> & Hs). destruct (isChar z); [|exact I]. exists t'; auto.
  - pose proof (scr_form accDec accDec_hex (c :: t) 0) as X.
    destruct (utf8 (c :: t)) as [|b bs] eqn:Hu.
    { unfold utf8 in Hu. cbn [flat_map] in Hu. apply app_eq_nil in Hu as [Hu _]. exfalso; eapply encode_nonempty; eauto. }
    destruct (Z.eqb_spec b 120) as [->|_].
    { exfalso. unfold utf8 in Hu. cbn [flat_map] in Hu. destruct (encode_rune c) as [|b' bs'] eqn:He; [eapply encode_nonempty; eauto|].
      cbn [app] in Hu. inversion Hu; subst. inversion Hh; lia. }
    destruct (scrLoop accDec 0 (b :: bs)) as [[z rest]| | |]; auto. destruct X as (t' & -> & Hs). destruct (isChar z); [|exact I]. exists t'; auto.
Qed.
Lemma refs_end_suffix : forall t t', refs_end t -> suffix t' t -> refs_end t'.
Proof. intros t t' Hr (p & ->) pre x d ->. apply (Hr (p ++ pre)). rewrite <- app_assoc. reflexivity. Qed.
(* bytes that begin no reference are copied *)
Lemma decode_high : forall n bs rest, Forall (fun b => 128 <= b) bs ->
  decodeEntities_fuel n (bs ++ rest) = Pan -> exists m, decodeEntities_fuel m rest = Pan.
Proof.
  induction n as [|n IH]; intros bs rest Hb Hp.
  - cbn [decodeEntities_fuel] in Hp. destruct (bs ++ rest); discriminate.
  - destruct bs as [|b bs]; [exists (Datatypes.S n); exact Hp|]. cbn [app decodeEntities_fuel] in Hp. inversion Hb; subst.
    assert (Hx : has_prefix (s_ "&#") (b :: bs ++ rest) = false) by (change (s_ "&#") with [38; 35]; cbn [has_prefix]; destruct (Z.eqb_spec 38 b); [lia|reflexivity]).
    rewrite Hx in Hp.
    destruct (Z.eqb_spec b 37); [lia|]. destruct (decodeEntities_fuel n (bs ++ rest)) eqn:Hr; try discriminate. eapply IH; eauto.
Qed.
Lemma decode_np : forall k t, (List.length t <= k)%nat -> refs_end t -> forall n, decodeEntities_fuel n (utf8 t) <> Pan.
Proof.
  induction k as [|k IH]; intros t Hk Hr n Hp.
  - destruct t; [|cbn in Hk; lia]. destruct n; discriminate.
  - destruct t as [|c t]; [destruct n; discriminate|]. cbn [List.length] in Hk.
    assert (Hrt : refs_end t) by (eapply refs_end_suffix; [exact Hr|exists [c]; auto]).
    destruct (encode_cases c) as [[He Hc]|Hh].
    + assert (Hu : utf8 (c :: t) = c :: utf8 t) by (unfold utf8; cbn [flat_map]; rewrite He; reflexivity). rewrite Hu in Hp.
      destruct n as [|n]; [discriminate|]. cbn [decodeEntities_fuel] in Hp.
      destruct (has_prefix (s_ "&#") (c :: utf8 t)) eqn:Hx.
      * assert (Hc38 : c = 38 /\ exists t', t = 35 :: t').
        { change (s_ "&#") with [38; 35] in Hx. cbn [has_prefix] in Hx. apply andb_true_iff in Hx as [Hx1 Hx2]. split; [lia|].
          destruct t as [|y t']; [discriminate Hx2|].
          unfold utf8 in Hx2. cbn [flat_map] in Hx2. destruct (encode_cases y) as [[Hy _]|Hy].
          - rewrite Hy in Hx2. cbn [app has_prefix] in Hx2. exists t'. f_equal. lia.
          - destruct (encode_rune y) as [|b bs] eqn:Ey; [exfalso; eapply encode_nonempty; eauto|]. inversion Hy; subst.
            cbn [app has_prefix] in Hx2. lia. }
        destruct Hc38 as [-> (t' & ->)]. pose proof (scref_np t' Hr) as X.
        change (utf8 (38 :: 35 :: t')) with (38 :: utf8 (35 :: t')) in X.
        destruct (parseStringCharRef (38 :: utf8 (35 :: t'))) as [[z rest]| | |]; try discriminate; [|destruct X].
        destruct X as (t2 & -> & Hs). destruct (decodeEntities_fuel n (utf8 t2)) eqn:Hd; try discriminate.
        revert Hd. apply IH; [apply suffix_length in Hs; cbn [List.length] in Hk; lia|].
        eapply refs_end_suffix; [exact Hrt|]. apply suffix_cons; auto.
      * destruct (c =? 37); [discriminate|]. destruct (decodeEntities_fuel n (utf8 t)) eqn:Hd; try discriminate. revert Hd. apply IH; [lia|auto].
    + unfold utf8 in Hp. cbn [flat_map] in Hp. change (flat_map encode_rune t) with (utf8 t) in Hp.
      apply decode_high in Hp as (m & Hp); auto. revert Hp. apply IH; [lia|auto].
Qed.
Lemma takeW_dropW' : forall f (l : list Z), takeW f l ++ dropW f l = l.
Proof. induction l as [|c l IH]; simpl; auto. destruct (f c); simpl; congruence. Qed.
Lemma dropW_hd : forall f (l : list Z), match dropW f l with [] => True | c :: _ => f c = false end.
Proof. induction l as [|c l IH]; simpl; auto. destruct (f c) eqn:Hc; auto. Qed.
Lemma stop_text : forall c, isChar c = false -> text_char c = false.
Proof. intros c. rewrite isChar_spec. auto. Qed.
Lemma value_refs_end : forall q l, quote q -> tame l -> refs_end (takeW (fun c => isChar c && negb (c =? q)) l).
Proof.
  intros q l Hq Hl pre x d He Hx Hd. pose proof (takeW_dropW' (fun c => isChar c && negb (c =? q)) l) as Hs. pose proof (dropW_hd (fun c => isChar c && negb (c =? q)) l) as Hh.
  rewrite He in Hs. rewrite <- app_assoc in Hs. cbn [app] in Hs. rewrite <- app_assoc in Hs.
  destruct (Hl _ _ (eq_sym Hs)) as (_ & Hc & _). apply (Hc _ _ _ eq_refl Hx Hd).
  destruct (dropW _ l) as [|c r]; [exact I|]. cbn. apply andb_false_iff in Hh as [Hh|Hh]; [right; apply stop_text; auto|left].
  assert (c = q) by lia. subst; auto.
Qed.
Lemma psafe_entityValue : psafe (parseEntityValue E).
Proof.
  intros l Hl. unfold parseEntityValue. unfold pbind at 1, ppeek.
  destruct ((peek E l =? 34) || (peek E l =? 39)) eqn:Hq.
  - assert (Hl2 : exists t, l = peek E l :: t).
    { destruct l as [|c t]; [|eauto]. cbn in Hq. destruct (ok_eofr E OK) as [e|e]; rewrite e in Hq; discriminate. }
    destruct Hl2 as (t & Ht). set (q := peek E l) in *. clearbody q. subst l.
    assert (Ht : tame t) by (eapply tame_suffix; [exact Hl|exists [q]; auto]).
    assert (Hqq : quote q) by (unfold quote; lia). pose proof (value_refs_end q t Hqq Ht) as Hr.
    unfold pbind, padvance, ppeek, parseEntityValueInternal, pret, plift, pwrap. rewrite advance_1. cbv zeta.
    set (run := takeW _ t) in *. set (rest := dropW _ t).
    assert (X : decodeEntities (utf8 run) <> Pan) by (apply (decode_np (List.length run)); auto).
    destruct (peek E rest =? q); destruct (decodeEntities (utf8 run)); try discriminate; congruence.
  - unfold pbind, pret, plift, pwrap. discriminate.
Qed.

(* ---- character references in values ---- *)
Lemma crefLoop_end : forall acc, acc_hex acc -> forall l n v l', crefLoop acc n l = (Some v, l') -> (l' = [] /\ Forall hexdigit l) \/ exists r, l' = 59 :: r.
Proof.
  intros acc Ha. induction l as [|c t IH]; intros n v l' Hl; cbn [crefLoop] in Hl; [inversion Hl; auto|].
  destruct (Z.eqb_spec c 59) as [->|_]; [inversion Hl; eauto|]. destruct (acc n c) as [x|] eqn:Hx; [|discriminate].
  apply IH in Hl as [[-> Hf]|]; auto. left. split; auto. constructor; auto. eapply Ha; eauto.
Qed.
Lemma int32_32 : forall m, int32 m = 32 -> m mod 4294967296 = 32.
Proof. intros m. unfold int32. intros Hm. assert (X : (m + 2147483648) mod 4294967296 = 2147483680) by lia. rewrite <- (Z.add_simpl_r m 2147483648), Zminus_mod, X. reflexivity. Qed.
Lemma charref_space : forall l x l', parseCharRef E l = (Ret x, l') -> tame l -> exists t, l = 38 :: t /\ (x = 32 -> space_ref t l').
Proof.
  intros l x l' Hp Hl. unfold parseCharRef in Hp. apply pbind_inv in Hp as (hex & l1 & H1 & Hp).
  apply pbind_inv in Hp as (dec & l2 & H2 & Hp). destruct dec; [|discriminate]. cbn [negb] in Hp.
  destruct (crefLoop (if hex then accHex else accDec) 0 l2) as [[v|] l3] eqn:Hc; [|discriminate].
  destruct (isChar v && (v <=? 1114111)) eqn:Hv; [|discriminate]. injection Hp as Hxv Hl'. subst x.
  assert (Hx : exists x, (x = [] \/ x = [120]) /\ l = 38 :: 35 :: x ++ l2 /\ x = if hex then [120] else []).
  { apply pconsume_inv in H1 as [[-> ->]|(-> & -> & _)].
    - inversion H2; subst l2. exists [120]. auto.
    - apply pconsume_inv in H2 as [[_ ->]|[Hf _]]; [|discriminate]. exists []. auto. }
  destruct Hx as (x & Hx1 & Hx2 & Hx3).
  assert (He : exists r, l3 = 59 :: r).
  { assert (Ha : acc_hex (if hex then accHex else accDec)) by (destruct hex; [apply accHex_hex|apply accDec_hex]).
    destruct (crefLoop_end _ Ha _ _ _ _ Hc) as [[-> Hf]|]; auto. exfalso.
    destruct (Hl [] l eq_refl) as (_ & C & _). apply (C x l2 []); auto. 2:{ exact I. } rewrite app_nil_r. exact Hx2. }
  destruct He as (r & ->). exists (35 :: x ++ l2). split; [exact Hx2|]. intros ->.
  cbn [peek hd] in Hl'. rewrite Z.eqb_refl, advance_1 in Hl'. subst r.
  assert (Hform : forall base val acc, acc_ok acc base val -> crefLoop acc 0 l2 = (Some 32, 59 :: l') ->
            exists m, number base val false 0 l2 = Some (m, l') /\ 32 = int32 m).
  { intros base val acc Hacc Hq. change 0 with (int32 0) in Hq at 1. destruct (crefLoop_form acc base val Hacc _ _ _ _ Hq) as [|(rest & m & A & B & C)]; [discriminate|].
    inversion A; subst rest. exists m. split; [|auto]. destruct l2 as [|c t]; [discriminate|]. cbn [number] in *.
    destruct (c =? 59); [|auto]. inversion B; subst. discriminate. }
  destruct hex; subst x.
  - destruct (Hform 16 hex_val accHex accHex_ok Hc) as (m & Hm & Hi). exists m. split; [apply int32_32; auto|]. right. exists l2. auto.
  - destruct (Hform 10 dec_val accDec accDec_ok Hc) as (m & Hm & Hi). exists m. split; [apply int32_32; auto|]. left. exists l2. auto.
Qed.

(* ---- values of spaces ---- *)
Definition sp32 (v : str) : Prop := Forall (eq 32) v.
Lemma collapse_nil : forall s, collapse s = [] -> s = [].
Proof. induction s as [|c t IH]; auto. cbn. destruct (c =? 32); [|discriminate]. destruct t as [|d t]; [discriminate|]. destruct (d =? 32); [|discriminate]. intros X. specialize (IH X). discriminate. Qed.
Lemma normalize_pan : forall v, attrNormalizeSpace v = Pan -> sp32 v /\ v <> [].
Proof.
  intros v Hv. unfold attrNormalizeSpace in Hv. destruct v as [|c t]; [discriminate|]. split; [|discriminate].
  cbv zeta in Hv. destruct (rev (collapse (dropW (fun c => c =? 32) (c :: t)))) as [|x r] eqn:Hr; [|discriminate].
  assert (Hc : collapse (dropW (fun c => c =? 32) (c :: t)) = []) by (apply (f_equal (@rev Z)) in Hr; rewrite rev_involutive in Hr; exact Hr).
  apply collapse_nil in Hc. revert Hc. generalize (c :: t). clear. induction l as [|c t IH]; cbn; [constructor|].
  destruct (Z.eqb_spec c 32) as [->|]; [|discriminate]. constructor; auto. apply IH; auto.
Qed.
Lemma rtrim_sp : forall b v, rtrim b = Ret v -> sp32 v -> v = [].
Proof.
  intros b v Hb Hs. assert (Hv : v = rev (rtrim_rev (rev b))) by (unfold rtrim in Hb; destruct (rev b); [discriminate|congruence]).
  assert (X : forall r, Forall (eq 32) (rtrim_rev r) -> rtrim_rev r = []).
  { induction r as [|x r IH]; cbn [rtrim_rev]; auto. destruct (Z.eqb_spec x 32); auto. intros F. inversion F. congruence. }
  subst v. rewrite X; auto. apply Forall_rev in Hs. rewrite rev_involutive in Hs. exact Hs.
Qed.
Lemma rtrim_np : forall b, b <> [] -> rtrim b <> Pan.
Proof. intros b Hb. unfold rtrim. destruct (rev b) eqn:Hr; [|discriminate]. apply (f_equal (@rev Z)) in Hr. rewrite rev_involutive in Hr. contradiction. Qed.
Lemma encode_sp : forall c, sp32 (encode_rune c) -> c = 32.
Proof.
  intros c Hc. destruct (encode_cases c) as [[He _]|Hh]; [rewrite He in Hc; inversion Hc; auto|].
  destruct (encode_rune c) as [|b bs] eqn:He; [exfalso; eapply encode_nonempty; eauto|]. inversion Hc; inversion Hh; lia.
Qed.

(* ---- the parser ---- *)
Section M.
Variable S : Type.
Variable H : handler S.
Variable good : S -> Prop.
Variable G : str -> Prop.
Hypothesis GE : forall h v e, good h -> good (fst (h_event H h v e)) /\ snd (h_event H h v e) <> HPanic.
Hypothesis GG : forall h v n, good h -> G n -> 
  exists e, snd (h_getEntity H h v n) = Answer (Some (Real e)) false /\ e_type e <> InternalPredefinedEntity /\
    (e_type e = InternalGeneralEntity -> refs_ok E G (runes_of (e_content e))).
Hypothesis GQ : forall h v n, good h -> good (fst (h_getEntity H h v n)) /\ snd (h_getEntity H h v n) <> AnswerPanic.
Hypothesis GP : forall h v n, good h -> good (fst (h_getPEntity H h v n)) /\ snd (h_getPEntity H h v n) <> AnswerPanic.
Hypothesis GO : forall h e v, good h -> good (h_setOrig H h e v).
Hypothesis GA : forall h l p v, good h -> good (fst (h_createAttr H h l p v)) /\ snd (h_createAttr H h l p v) <> Pan.
Hypothesis GN : forall h, good h -> good (h_chunkEnter H h).
Hypothesis GL : forall h h', good h -> good h' -> good (h_chunkLeave H h h').

(* with k the rest of the input is tame; without, it is or no attribute has
   been given a type *)
Definition J (k : bool) (s : pst S) : Prop :=
  refs_ok E G (inp s) /\ good (hs s) /\ (tame (inp s) \/ k = false /\ attsSpecial s = []).
Definition sat {A} (k : bool) (Q : A -> pst S -> Prop) (m : M S A) (s : pst S) : Prop :=
  fst (m s) <> Pan /\ J k (snd (m s)) /\ (forall a, fst (m s) = Ret a -> Q a (snd (m s))).
Definition safe {A} (k : bool) (Q : A -> Prop) (m : M S A) : Prop := forall s, J k s -> sat k (fun a _ => Q a) m s.
Definition any {A} (a : A) : Prop := True.
Ltac s3 := refine (conj _ (conj _ _)).
Ltac triv := s3; [discriminate|auto|intros; try exact I; try discriminate].

Lemma J_tame : forall s, J true s -> tame (inp s).
Proof. intros s (_ & _ & [Ht|[Hk _]]); [auto|discriminate]. Qed.
Lemma J_weak : forall k s, J true s -> J k s.
Proof. intros k s Hs. pose proof (J_tame s Hs). destruct Hs as (A1 & A2 & _). repeat split; auto. Qed.
Lemma J_up : forall k s, J k s -> tame (inp s) -> J true s.
Proof. intros k s (A1 & A2 & _) Ht. repeat split; auto. Qed.
Lemma J_suffix : forall k s l, J k s -> suffix l (inp s) -> J k (set_inp S l s).
Proof. intros k s l (A1 & A2 & A3) Hl. repeat split; auto; [eapply refs_suffix; eauto|]. destruct A3; auto. left. eapply tame_suffix; eauto. Qed.
Lemma sat_weak : forall k A (Q : A -> pst S -> Prop) m s, sat true Q m s -> sat k Q m s.
Proof. intros k A Q m s (F1 & F2 & F3). s3; auto. apply J_weak; auto. Qed.
Lemma sat_any : forall k A (Q : A -> pst S -> Prop) m s, sat k Q m s -> sat k (fun _ _ => True) m s.
Proof. intros k A Q m s (F1 & F2 & F3). s3; auto. Qed.
Lemma sat_bind : forall k A B (Q : A -> pst S -> Prop) (R : B -> pst S -> Prop) m (f : A -> M S B) s,
  sat k Q m s -> (forall a s', fst (m s) = Ret a -> snd (m s) = s' -> Q a s' -> J k s' -> sat k R (f a) s') -> sat k R (bind S m f) s.
Proof.
  intros k A B Q R m f s (F1 & F2 & F3) Hf. unfold sat, bind.
  destruct (m s) as [[a|e| |] s']; cbn [fst snd] in *; try (triv; fail).
  - apply Hf; auto.
  - congruence.
Qed.
Lemma sat_wrap : forall k A (Q : A -> pst S -> Prop) m s, sat k Q m s -> sat k Q (wrap S m) s.
Proof. intros k A Q m s Hm. unfold sat, wrap in *. destruct (m s) as [[a|e| |] s']; cbn [fst snd] in *; auto. destruct Hm as (_ & ? & _). triv. Qed.
Lemma sat_ret : forall k A (Q : A -> pst S -> Prop) (a : A) s, J k s -> Q a s -> sat k Q (ret S a) s.
Proof. intros k A Q a s Hs Qa. s3; [discriminate|auto|]. cbn. intros a0 Ha; inversion Ha; subst; auto. Qed.
Lemma sat_fail : forall k A (Q : A -> pst S -> Prop) e s, J k s -> sat k Q (@fail S A e) s.
Proof. intros k A Q e s Hs. triv. Qed.
Lemma safe_bind : forall k A B (Q : A -> Prop) (R : B -> Prop) m (f : A -> M S B),
  safe k Q m -> (forall a, Q a -> safe k R (f a)) -> safe k R (bind S m f).
Proof. intros k A B Q R m f Hm Hf s Hs. eapply sat_bind; [apply Hm; auto|]. cbn. intros a s' _ _ Qa Hs'. apply Hf; auto. Qed.
Lemma safe_wrap : forall k A (Q : A -> Prop) m, safe k Q m -> safe k Q (wrap S m).
Proof. intros k A Q m Hm s Hs. apply sat_wrap; auto. Qed.
Lemma safe_always : forall k A (Q : A -> Prop) m c s, sat k (fun a _ => Q a) m s -> psuf c -> sat k (fun a _ => Q a) (always S m c) s.
Proof.
  intros k A Q m c s Hm Hc. unfold sat, always in *.
  destruct (m s) as [[a|e| |] s']; cbn [fst snd] in *; auto; destruct Hm as (? & ? & ?); pose proof (Hc (inp s'));
    s3; try discriminate; auto; apply J_suffix; auto.
Qed.
Lemma safe_ret : forall k A (Q : A -> Prop) (a : A), Q a -> safe k Q (ret S a).
Proof. intros k A Q a Qa s Hs. apply sat_ret; auto. Qed.
Lemma safe_fail : forall k A (Q : A -> Prop) e, safe k Q (@fail S A e).
Proof. intros k A Q e s Hs. triv. Qed.
Lemma safe_failw : forall k A (Q : A -> Prop) e, safe k Q (@failw S A e).
Proof. intros; apply safe_fail. Qed.
Lemma safe_oof : forall k A (Q : A -> Prop), safe k Q (@oof S A).
Proof. intros k A Q s Hs. triv. Qed.
Lemma safe_get : forall k A (f : pst S -> A), safe k any (get S f).
Proof. intros k A f s Hs. triv. Qed.
Lemma safe_mlift : forall k A (Q : A -> Prop) o, o <> Pan -> safe k any (@mlift S A o).
Proof. intros k A Q o Ho s Hs. s3; [exact Ho|exact Hs|intros; exact I]. Qed.
Lemma safe_modify : forall k f, (forall s, inp (f s) = inp s /\ hs (f s) = hs s /\ (attsSpecial s = [] -> attsSpecial (f s) = [])) -> safe k any (modify S f).
Proof. intros k f Hf s (A1 & A2 & A3). destruct (Hf s) as (B1 & B2 & B3). unfold sat, modify, J; cbn. rewrite B1, B2. triv. repeat split; auto. destruct A3 as [?|[? ?]]; auto. Qed.
Lemma safe_lift : forall k A (p : P A), pnp p -> psuf p -> safe k any (lift S p).
Proof.
  intros k A p Hp Hq s Hs. unfold sat, lift. specialize (Hp (inp s)). specialize (Hq (inp s)). destruct (p (inp s)) as [o l]; cbn in *.
  s3; [auto|apply J_suffix; auto|intros; exact I].
Qed.
Lemma safe_liftt : forall A (p : P A), psafe p -> psuf p -> safe true any (lift S p).
Proof.
  intros A p Hp Hq s Hs. unfold sat, lift. specialize (Hp (inp s) (J_tame s Hs)). specialize (Hq (inp s)). destruct (p (inp s)) as [o l]; cbn in *.
  s3; [auto|apply J_suffix; auto|intros; exact I].
Qed.
Lemma safe_emit_raw : forall k e, safe k any (emit_raw S H e).
Proof.
  intros k e s (A1 & A2 & A3). unfold sat, emit_raw. destruct (GE (hs s) (the_view S s) e A2) as [B1 B2].
  destruct (h_event _ _ _ _) as [h' r]. cbn [fst snd] in *. destruct r; try congruence; cbn; triv; repeat split; auto.
Qed.
Lemma safe_emit : forall k e, safe k any (emit S H e).
Proof. intros; apply safe_wrap, safe_emit_raw. Qed.
Lemma safe_peek : forall k, safe k any (mpeek E S).
Proof. intros; apply safe_lift; [apply pnp_fun|]. intros l; apply suffix_refl. Qed.
Lemma safe_peekn : forall k n, safe k any (mpeekn E S n).
Proof. intros; apply safe_lift; [apply pnp_fun|]. intros l; apply suffix_refl. Qed.
Lemma safe_has : forall k n, safe k any (mhas S n).
Proof. intros; apply safe_lift; [apply pnp_fun|]. intros l; apply suffix_refl. Qed.
Lemma safe_adv : forall k n, safe k any (madvance E S n).
Proof. intros; apply safe_lift; [apply pnp_fun|]. intros l. apply suffix_advance; auto. Qed.
Lemma safe_consume : forall k p, safe k any (mconsume S p).
Proof. intros; apply safe_lift; [apply pnp_consume|]. intros l. unfold pconsume. destruct (has_prefix _ _); cbn; [apply suffix_skipn|apply suffix_refl]. Qed.
Lemma safe_skip : forall k, safe k any (mskip S).
Proof. intros; apply safe_lift; [apply pnp_fun|]. intros l. apply suffix_dropW. Qed.
Lemma safe_blanks : forall k t, safe k any (areBlanks E S H t).
Proof. intros k t s Hs. cbn. triv. Qed.
Ltac fsolve := first [ apply safe_peek | apply safe_peekn | apply safe_adv | apply safe_has | apply safe_consume | apply safe_skip
  | apply safe_failw | apply safe_fail | apply safe_oof | apply safe_get | apply safe_emit | apply safe_emit_raw | apply safe_blanks
  | apply safe_ret; exact I | assumption ].
Ltac fstep := first [ fsolve | match goal with
  | |- forall _, _ => intro
  | |- safe _ _ (bind _ (mdone _) _) => eapply safe_bind with (Q := any); [apply safe_get|]
  | |- safe _ _ (bind _ _ _) => eapply safe_bind; [first [fsolve | apply safe_wrap; fsolve]|]
  | |- safe _ _ (bind _ (if _ then _ else _) _) => eapply safe_bind with (Q := any)
  | |- safe _ _ (wrap _ _) => apply safe_wrap
  | |- safe _ _ (if ?b then _ else _) => destruct b
  | |- safe _ _ (let '(_, _) := ?x in _) => destruct x
  | |- safe _ _ (match ?x with _ => _ end) => destruct x
  | |- safe _ _ (let _ := _ in _) => cbv zeta
  end ].

Lemma safe_PI : forall k, safe k any (parsePI E S H).
Proof. intros. unfold parsePI. eapply safe_bind; [apply safe_lift; [apply pnp_PI|apply psuf_pi; auto]|]. repeat fstep. Qed.
Lemma safe_comment : forall k, safe k any (parseComment E S H).
Proof. intros. unfold parseComment. eapply safe_bind; [apply safe_lift; [apply pnp_comment|apply psuf_comment; auto]|]. repeat fstep. Qed.
Lemma safe_charData : forall k b, safe k any (parseCharData E S H b).
Proof. intros k b. unfold parseCharData. eapply safe_bind; [apply safe_lift; [apply pnp_chardata|apply psuf_chardata; auto]|]. repeat fstep. Qed.
Lemma safe_CDSect : forall k, safe k any (parseCDSect E S H).
Proof. intros k. unfold parseCDSect. eapply safe_bind; [fsolve|]. intros ok _. destruct (negb ok); [fsolve|]. eapply safe_bind; [apply safe_wrap, safe_charData|]. repeat fstep. Qed.

(* a known entity: no entity that stands for spaces is taken for predefined *)
Definition okent (e : ent) : Prop := (e_type e = InternalGeneralEntity -> refs_ok E G (runes_of (e_content e))) /\
  (e_type e = InternalPredefinedEntity -> ~ sp32 (e_content e)).
Lemma predefined_sp : forall n c, predefined n = Some c -> ~ sp32 c.
Proof.
  intros n c Hn. unfold predefined in Hn.
  repeat match type of Hn with (if ?b then _ else _) = _ => destruct b; [inversion Hn; subst; intros Hf; inversion Hf; discriminate|] end. discriminate.
Qed.
Lemma safe_entityRef : forall k, safe k okent (parseEntityRef E S H).
Proof.
  intros k s Hs. unfold parseEntityRef.
  eapply sat_bind; [apply safe_peek; auto|]. intros c s' Hc <- _ _. cbn in Hc. inversion Hc; subst c; clear Hc.
  unfold mpeek, lift, ppeek. cbn [fst snd]. replace (set_inp S (inp s) s) with s by (destruct s; reflexivity).
  destruct (Z.eqb_spec (peek E (inp s)) 38) as [Hp|_]; [|apply safe_failw; auto]. cbn [negb].
  assert (Hl : exists t, inp s = 38 :: t).
  { unfold peek in Hp. destruct (inp s) as [|x t]; [|simpl in Hp; subst; eauto]. simpl in Hp. destruct (ok_eofr E OK) as [e|e]; rewrite e in Hp; discriminate. }
  destruct Hl as (t & Hl).
  eapply sat_bind; [apply safe_adv; auto|]. intros _ s' _ <- _ Is'.
  unfold madvance, lift, padvance in *. cbn [fst snd] in *.
  assert (Ha : advance E 1 (inp s) = t) by (rewrite Hl; reflexivity). rewrite Ha in *.
  eapply sat_bind with (Q := fun name _ => predefined name <> None \/ G name).
  - pose proof (safe_lift k _ (por_else (parseName E) (PErr (Plain "ErrNameRequired")))) as X.
    destruct (X (pnp_else _ _ _ (pnp_scanName E _ _ _)) ltac:(apply psuf_else, psuf_scanName; auto) (set_inp S t s) Is') as (X1 & X2 & _).
    s3; auto. intros name Hn. unfold lift, por_else in Hn. cbn [inp set_inp] in Hn.
    destruct (parseName E t) as [[v|e| |] l'] eqn:Hpn; cbn in Hn; try discriminate. inversion Hn; subst v.
    apply parseName_inv in Hpn as (n & after & -> & -> & Hn1 & Hn2 & _); auto.
    destruct n as [|c run]; [destruct Hn1|]. destruct Hn1 as [Hst Hrun].
    destruct Hs as (Hr & _ & _). destruct (Hr [] c run after) as [Hpre|Hg]; auto.
    + eapply Forall_impl; [|exact Hrun]. cbn. intros x. rewrite nameRest_part; auto.
    + destruct after; auto. rewrite <- nameRest_part; auto.
    + left. rewrite In_predef_utf8 by auto. apply predefined_In; auto.
  - intros name s' _ _ Hname Is2. clear Is' Ha Hl Hp Hs.
    eapply sat_bind; [apply safe_peek; auto|]. intros c2 s3 _ _ _ Is3. destruct (negb _); [apply safe_failw; auto|].
    eapply sat_bind; [apply safe_adv; auto|]. intros _ s4 _ _ _ Is4.
    destruct (predefined name) as [content|] eqn:Hpre.
    { apply safe_ret; auto. split; [intro; discriminate|]. intros _. eapply predefined_sp; eauto. }
    destruct Hname as [Hn|Hg]; [congruence|].
    assert (Hq : sat k (fun a _ => exists e, a = (Some (Real e), false) /\ okent e) (queryEntity S H name) s4).
    { destruct Is4 as (B1 & B2 & B3). unfold sat, queryEntity. destruct (GQ (hs s4) (the_view S s4) name B2) as (C1 & _).
      destruct (GG (hs s4) (the_view S s4) name B2 Hg) as (e & C2 & C3 & C4).
      destruct (h_getEntity _ _ _ _) as [h' a]. cbn [fst snd] in *. subst a. cbn. s3; [discriminate|repeat split; auto|].
      intros a Ha. inversion Ha; subst. exists e. split; auto. split; auto. }
    eapply sat_bind; [exact Hq|]. intros a s5 _ _ (e & -> & He) Is5. cbn. apply safe_ret; auto.
Qed.

Lemma sat_tame : forall A (Q : A -> Prop) m, (forall k, safe k Q m) -> forall k s, J k s ->
  sat k (fun a s' => Q a /\ (tame (inp s) -> tame (inp s'))) m s.
Proof.
  intros A Q m Hm k s Hs. destruct (Hm k s Hs) as (F1 & F2 & F3). s3; auto. intros a Ha. split; auto.
  intros Ht. destruct (Hm true s (J_up _ _ Hs Ht)) as (_ & X & _). apply J_tame; auto.
Qed.

(* ---- attribute values ---- *)
Definition vpost (q : Z) (b0 : str) (en : Z) (l : list Z) (r : str * Z) (l' : list Z) : Prop :=
  sp32 (fst r) -> fst r <> [] -> sp32 b0 /\ exists rho k, blank_run rho k l l' /\ (snd r = en \/ rho = true) /\ (b0 = [] -> k <> 0%nat) /\ ends q l'.
Lemma value_loop : forall k n q nz b0 sp en s, J k s -> (nz = true -> sp = true -> b0 <> []) ->
  sat k (fun r s' => tame (inp s) -> vpost q b0 en (inp s) r (inp s')) (attrValueLoop E S H n q nz b0 sp en) s.
Proof.
  clear GA. intros k. induction n as [|n IH]; intros q nz b0 sp en s Hs Hsp; cbn [attrValueLoop]; [triv|].
  eapply sat_bind; [apply safe_peek; auto|]. intros c s' Hc <- _ _. cbn in Hc. inversion Hc; subst c; clear Hc.
  unfold mpeek, lift, ppeek. cbn [fst snd]. replace (set_inp S (inp s) s) with s by (destruct s; reflexivity).
  destruct ((peek E (inp s) =? q) || negb (isChar (peek E (inp s))) || (peek E (inp s) =? 60)) eqn:Hend.
  { assert (He : ends q (inp s)).
    { destruct (inp s) as [|x t]; [exact I|]. cbn in Hend |- *. destruct (Z.eqb_spec x q); auto. destruct (Z.eqb_spec x 60); auto.
      right. right. apply stop_text. destruct (isChar x); auto. }
    destruct (sp && nz) eqn:Hsn.
    - apply andb_true_iff in Hsn as [-> ->]. specialize (Hsp eq_refl eq_refl).
      eapply sat_bind with (Q := fun v s' => rtrim b0 = Ret v).
      { s3; [apply rtrim_np; auto|exact Hs|]. cbn. auto. }
      intros v s' _ _ Hv Hs'. apply sat_ret; auto. intros _ H1 H2. cbn in *. exfalso. apply H2. eapply rtrim_sp; eauto.
    - apply sat_ret; auto. intros _ H1 H2. cbn in *. split; auto. exists false, 0%nat. split; [constructor|]. split; [auto|]. split; [intros ->; congruence|auto]. }
  assert (Hl : exists t, inp s = peek E (inp s) :: t).
  { destruct (inp s) as [|x t]; [|eauto]. cbn in Hend. destruct (ok_eofr E OK) as [e|e]; rewrite e in Hend; cbn in Hend; destruct (_ =? q); discriminate. }
  destruct Hl as (t & Hl). set (c := peek E (inp s)) in *. clearbody c.
  assert (Hadv : forall f (R : str * Z -> pst S -> Prop), (J k (set_inp S t s) -> sat k R f (set_inp S t s)) -> sat k R (bind S (madvance E S 1) (fun _ => f)) s).
  { intros f R Hf. eapply sat_bind; [apply safe_adv; auto|]. intros [] s' _ <- _ Hs'. unfold madvance, lift, padvance in *. cbn [fst snd] in *.
    rewrite Hl, advance_1 in *. apply Hf; auto. }
  assert (Happ : forall a b, sp32 (a ++ b) -> sp32 a /\ sp32 b) by (intros a b; apply Forall_app).
  destruct (Z.eqb_spec c 38) as [->|Hc].
  - eapply sat_bind; [apply safe_peekn; auto|]. intros c2 s' _ <- _ _. unfold mpeekn, lift, ppeekn. cbn [fst snd].
    replace (set_inp S (inp s) s) with s by (destruct s; reflexivity).
    destruct (c2 =? 35).
    + eapply sat_bind with (Q := fun r s' => tame (inp s) -> (r = 32 -> space_ref t (inp s')) /\ tame (inp s')).
      * apply sat_wrap. pose proof (pnp_charref E (inp s)) as N. pose proof (psuf_charref E OK (inp s)) as U.
        unfold sat, lift. destruct (parseCharRef E (inp s)) as [o l'] eqn:Hp. cbn [fst snd] in *. s3; [auto|apply J_suffix; auto|].
        intros r -> Ht. cbn [inp set_inp]. split; [|eapply tame_suffix; eauto].
        destruct (charref_space _ _ _ Hp Ht) as (t' & E1 & E2). rewrite Hl in E1. inversion E1; subst; auto.
      * intros r s' _ _ Hr Hs'. assert (X := IH q nz (b0 ++ (if r =? 38 then s_ "&#38;" else encode_rune r)) false (en + 1) s' Hs' ltac:(intros; discriminate)).
        destruct X as (X1 & X2 & X3). s3; auto. intros a Ha Ht. destruct (Hr Ht) as [Hr1 Hr2]. specialize (X3 a Ha Hr2).
        intros V1 V2. destruct (X3 V1 V2) as (Hb & rho & m & R1 & R2 & R3 & R4). apply Happ in Hb as [Hb1 Hb2].
        assert (r = 32). { destruct (Z.eqb_spec r 38); [inversion Hb2; discriminate|]. apply encode_sp; auto. }
        split; auto. exists true, (Datatypes.S m). rewrite Hl. split; [eapply br_ref; eauto|]. auto.
    + eapply sat_bind; [apply sat_wrap, (sat_tame _ okent _ safe_entityRef); auto|]. cbn. intros e s' _ _ [[_ He] Htt] Hs'.
      set (w := if e_type e =? InternalPredefinedEntity then _ else _).
      assert (Hw : ~ sp32 w).
      { unfold w. destruct (Z.eqb_spec (e_type e) InternalPredefinedEntity) as [Ht|_].
        - destruct (str_eqb (e_content e) [38]); [|auto]. intros X; inversion X; discriminate.
        - intros X; inversion X; discriminate. }
      clearbody w. destruct (IH q nz (b0 ++ w) false (en + 1) s' Hs' ltac:(intros; discriminate)) as (X1 & X2 & X3). s3; auto.
      intros a Ha Ht V1 V2. exfalso. destruct (X3 a Ha (Htt Ht) V1 V2) as (Hb & _). apply Happ in Hb as [_ Hb]. auto.
  - destruct ((c =? 32) || (c =? 13) || (c =? 10) || (c =? 9)) eqn:Hbl.
    + cbv zeta. set (keep := negb (match b0 with [] => true | _ => false end) || negb nz).
      set (b1 := if keep && (negb nz || negb sp) then b0 ++ [32] else b0).
      assert (Hb1 : sp32 b1 -> sp32 b0) by (unfold b1; destruct (_ && _); auto; intros X; apply Happ in X; tauto).
      assert (Hk : nz = true -> (if keep then true else sp) = true -> b1 <> []).
      { intros -> Hk. unfold keep, b1 in *. destruct b0 as [|y ys]; cbn in *; [apply (Hsp eq_refl Hk)|]. destruct (negb sp); discriminate. }
      clearbody b1. apply Hadv. intros Hs'. destruct (IH q nz b1 (if keep then true else sp) en _ Hs' Hk) as (X1 & X2 & X3). s3; auto.
      intros a Ha Ht V1 V2. rewrite Hl in Ht.
      assert (Ht2 : tame t) by (eapply tame_suffix; [exact Ht|exists [c]; auto]).
      destruct (X3 a Ha Ht2 V1 V2) as (Hb & rho & m & R1 & R2 & R3 & R4). split; auto. exists rho, (Datatypes.S m).
      rewrite Hl. split; [constructor; auto; cbn; lia|]. auto.
    + apply Hadv. intros Hs'. destruct (IH q nz (b0 ++ encode_rune c) false en _ Hs' ltac:(intros; discriminate)) as (X1 & X2 & X3). s3; auto.
      intros a Ha Ht V1 V2. exfalso. rewrite Hl in Ht. assert (Ht2 : tame t) by (eapply tame_suffix; [exact Ht|exists [c]; auto]).
      destruct (X3 a Ha Ht2 V1 V2) as (Hb & _). apply Happ in Hb as [_ Hb]. apply encode_sp in Hb. lia.
Qed.
Lemma peek_quote : forall s : pst S, (peek E (inp s) =? 34) || (peek E (inp s) =? 39) = true -> exists t, inp s = peek E (inp s) :: t /\ quote (peek E (inp s)).
Proof.
  clear GA. intros s Hq. destruct (inp s) as [|c t].
  - cbn in Hq. destruct (ok_eofr E OK) as [e|e]; rewrite e in Hq; discriminate.
  - exists t. split; auto. unfold quote. lia.
Qed.
Lemma safe_attrValue : forall k nz n, (nz = true -> k = true) ->
  safe k (fun ve => nz = true -> 0 < snd ve -> attrNormalizeSpace (fst ve) <> Pan) (parseAttributeValue E S H n nz).
Proof.
  clear GA. intros k nz n Hk s Hs. unfold parseAttributeValue.
  eapply sat_bind; [apply safe_peek; auto|]. intros c s' Hc <- _ _. cbn in Hc. inversion Hc; subst c; clear Hc.
  unfold mpeek, lift, ppeek. cbn [fst snd]. replace (set_inp S (inp s) s) with s by (destruct s; reflexivity).
  destruct ((peek E (inp s) =? 34) || (peek E (inp s) =? 39)) eqn:Hq; [|apply sat_ret; auto; cbn; lia].
  apply peek_quote in Hq as (t & Hl & Hq). set (q := peek E (inp s)) in *. clearbody q.
  eapply sat_bind; [apply safe_adv; auto|]. intros [] s' _ <- _ Hs'. unfold madvance, lift, padvance in *. cbn [fst snd] in *.
  rewrite Hl, advance_1 in *. apply safe_always.
  2:{ intros l0. cbn. destruct (_ =? _); [apply suffix_advance; auto|apply suffix_refl]. }
  destruct (value_loop k n q nz [] false 0 _ Hs' ltac:(intros; discriminate)) as (X1 & X2 & X3). s3; auto.
  intros [v e] Ha -> He Hn. cbn [fst snd inp set_inp] in *. apply normalize_pan in Hn as [N1 N2].
  assert (Hk' : k = true) by auto. subst k. assert (Ht : tame (q :: t)) by (rewrite <- Hl; apply J_tame; auto).
  assert (Ht2 : tame t) by (eapply tame_suffix; [exact Ht|exists [q]; auto]).
  destruct (X3 _ Ha Ht2 N1 N2) as (_ & rho & m & R1 & R2 & R3 & R4). cbn [snd] in R2. assert (rho = true) by (destruct R2; auto; lia). subst rho.
  destruct (Ht [] _ eq_refl) as (_ & _ & C & _). eapply C; eauto.
Qed.
Lemma safe_attribute : forall n nm, safe false any (parseAttribute E S H n nm).
Proof.
  intros n nm. unfold parseAttribute. eapply safe_bind; [apply safe_lift; [apply pnp_wrap, pnp_qname|apply psuf_wrap, psuf_qname; auto]|].
  intros [l p] _ s Hs.
  assert (R : forall k nz, (nz = true -> k = true) -> safe k any (bind S (mskip S) (fun _ => bind S (madvance E S 1) (fun _ => bind S (mskip S) (fun _ =>
      bind S (wrap S (parseAttributeValue E S H n nz)) (fun ve => bind S (if nz && (0 <? snd ve) then mlift S (attrNormalizeSpace (fst ve)) else ret S (fst ve))
        (fun v => ret S (l, p, v)))))))).
  { intros k nz Hk. eapply safe_bind; [fsolve|]. intros _ _. eapply safe_bind; [fsolve|]. intros _ _. eapply safe_bind; [fsolve|]. intros _ _.
    eapply safe_bind; [apply safe_wrap, safe_attrValue; exact Hk|]. cbn. intros ve Hve. eapply safe_bind with (Q := any).
    - destruct nz; cbn [andb]; [|fsolve]. destruct (Z.ltb_spec 0 (snd ve)); [|fsolve]. apply (safe_mlift _ _ any). auto.
    - intros; fsolve. }
  eapply sat_bind with (Q := fun sp s' => sp = attsSpecial s /\ s' = s).
  { s3; [discriminate|auto|]. intros a Ha. cbn in Ha. inversion Ha; subst. auto. }
  intros sp s' _ _ [-> ->] _. cbv zeta. destruct Hs as (A1 & A2 & [A3|[_ A3]]).
  - apply sat_weak. apply (R true); auto. repeat split; auto.
  - rewrite A3. cbn [lookupSpecial find]. apply (R false); [discriminate|]. repeat split; auto.
Qed.
Lemma safe_afterNS : forall k, safe k any (afterNSDecl E S).
Proof. intros. unfold afterNSDecl. repeat fstep. Qed.
Lemma safe_attrLoop : forall n l a nb, safe false any (attrLoop E S H n l a nb).
Proof.
  induction n as [|n IH]; intros l a nb; cbn [attrLoop]; [fsolve|].
  eapply safe_bind; [fsolve|]. intros _ _. eapply safe_bind; [fsolve|]. intros c _.
  destruct (c =? 62); [repeat fstep|]. eapply safe_bind; [fsolve|]. intros c2 _. destruct (_ && _); [fsolve|].
  eapply safe_bind; [apply safe_wrap, safe_attribute|]. intros [[an ap] av] _. cbv zeta.
  assert (NS : forall f, safe false any (modify S (fun s => set_nsTab S (f s) s))) by (intros; apply safe_modify; auto).
  destruct (_ && _).
  - eapply safe_bind; [apply NS|]. intros _ _. eapply safe_bind; [apply safe_afterNS|]. intros [|] _; apply IH.
  - destruct (str_eqb ap _); [|apply IH]. destruct (str_eqb an _).
    + destruct (negb _); [fsolve|]. eapply safe_bind; [apply safe_afterNS|]. intros _ _; apply IH.
    + repeat (match goal with |- safe _ _ (if ?b then _ else _) => destruct b end; [fsolve|]).
      eapply safe_bind; [fsolve|]. intros tab _. destruct (negb _); [fsolve|].
      eapply safe_bind; [apply NS|]. intros _ _. eapply safe_bind; [apply safe_afterNS|]. intros _ _; apply IH.
Qed.
Lemma safe_startTag : forall n, safe false any (parseStartTag E S H n).
Proof.
  intros n. unfold parseStartTag. eapply safe_bind; [fsolve|]. intros c _. destruct (negb _); [fsolve|].
  eapply safe_bind; [fsolve|]. intros _ _.
  eapply safe_bind; [apply safe_lift; [apply pnp_else, pnp_qname|apply psuf_else, psuf_qname; auto]|]. intros [l p] _.
  destruct l; [fsolve|]. eapply safe_bind; [apply safe_attrLoop|]. intros [as0 nb] _.
  eapply safe_bind; [fsolve|]. intros d _. cbv zeta. eapply safe_bind; [fsolve|]. intros tab _.
  destruct (_ && _); [fsolve|]. eapply safe_bind; [fsolve|]. intros _ _. apply safe_modify; auto.
Qed.
Lemma sat_endTag : forall s, J false s -> nodeTab s <> [] -> sat false (fun a _ => any a) (parseEndTag E S H) s.
Proof.
  intros s Hs Hn. unfold parseEndTag.
  eapply sat_bind; [apply safe_consume; auto|]. intros empty s1 _ E1 _ I1.
  assert (N1 : nodeTab s1 = nodeTab s). { rewrite <- E1. unfold mconsume, lift. destruct (pconsume _ _); reflexivity. }
  eapply sat_bind with (Q := fun nodes _ => nodes = nodeTab s).
  { s3; [discriminate|auto|]. intros a Ha. cbn in Ha. inversion Ha; congruence. }
  intros nodes s2 _ _ -> I2. destruct (nodeTab s) as [|[[l p] u] rest]; [congruence|].
  revert s2 I2. match goal with |- forall s2, J _ s2 -> sat _ _ ?m s2 => change (safe false any m) end.
  eapply safe_bind with (Q := any).
  - repeat fstep.
  - intros _ _. eapply safe_bind; [fsolve|]. intros _ _. apply safe_modify; auto.
Qed.
Lemma safe_element : forall n content, eff TForest content -> safe false any content -> safe false any (parseElement E S H n content).
Proof.
  intros n content Heff Hc s Hs. unfold parseElement.
  eapply sat_bind; [apply safe_wrap; [apply safe_startTag|auto]|]. intros [] s1 R1 E1 _ I1.
  assert (N1 : nodeTab s1 <> []).
  { destruct (starts_wrap _ _ (starts_startTag E S H n) s) as (evs & _ & _ & [(_ & _ & X)|(X & _)]).
    - destruct X as (l & p & u & ns & atts & r & _ & X). rewrite E1 in X. rewrite X. discriminate.
    - rewrite R1 in X. discriminate. }
  eapply sat_bind; [apply safe_has; auto|]. intros empty s2 _ E2 _ I2.
  assert (N2 : nodeTab s2 <> []). { rewrite <- E2. exact N1. }
  eapply sat_bind with (Q := fun _ _ => True).
  - destruct empty; [apply sat_ret; auto|apply (sat_any _ _ (fun a _ => any a)), sat_wrap; auto].
  - intros [] s3 R3 E3 _ I3. apply sat_wrap, sat_endTag; auto.
    destruct empty; [cbn in E3; rewrite <- E3; auto|].
    destruct (eff_wrap _ TForest _ content Heff s2) as (evs & _ & _ & _ & F). rewrite R3 in F. destruct (F eq_refl) as (F1 & _).
    rewrite E3 in F1. rewrite F1. exact N2.
Qed.
Lemma safe_chunk : forall content c, safe false any content -> refs_ok E G (runes_of c) -> safe false any (parseBalancedChunk S H content c).
Proof.
  intros content c Hc Hr s Hs. unfold sat, parseBalancedChunk. cbv zeta. destruct (_ <? _); [apply (safe_fail false _ any); auto|].
  match goal with |- context [content ?x] => set (s0 := x) end.
  assert (I0 : J false s0). { destruct Hs as (A1 & A2 & A3). unfold J, s0; cbn. repeat split; auto. }
  destruct (Hc s0 I0) as (B1 & (B2 & B3 & B4) & _). destruct (content s0) as [o s1]. cbn [fst snd] in *.
  destruct Hs as (A1 & A2 & A3).
  s3; [auto| |intros; exact I]. unfold J; cbn. repeat split; auto.
Qed.
Lemma safe_charRef : forall k, safe k any (wrap S (lift S (parseCharRef E))).
Proof. intros. apply safe_wrap, safe_lift; [apply pnp_charref|apply psuf_charref; auto]. Qed.
Lemma safe_reference : forall content, safe false any content -> safe false any (parseReference E S H content).
Proof.
  intros content Hc. unfold parseReference. eapply safe_bind; [fsolve|]. intros c _. destruct (negb _); [fsolve|].
  eapply safe_bind; [fsolve|]. intros c2 _. destruct (_ =? _).
  - eapply safe_bind; [apply safe_charRef|]. intros v _. fsolve.
  - eapply safe_bind; [apply safe_wrap, safe_entityRef|]. intros e [He _]. destruct (_ || _); [repeat fstep|].
    destruct (_ =? _); [fsolve|]. destruct (Z.eqb_spec (e_type e) InternalGeneralEntity) as [Ht|_]; [|fsolve].
    eapply safe_bind; [apply safe_chunk; auto|]. intros _ _. fsolve.
Qed.
Lemma safe_content : forall n, safe false any (parseContent E S H n).
Proof.
  induction n as [|n IH]; cbn [parseContent]; [fsolve|].
  eapply safe_bind with (Q := any); [apply safe_get|]. intros d _. destruct d; [fsolve|].
  assert (X : forall m : M S unit, safe false any m -> safe false any (bind S m (fun _ => parseContent E S H n))).
  { intros m Hm. eapply safe_bind; [exact Hm|]. intros _ _. exact IH. }
  intros s Hs. unfold sat. cbv zeta. repeat match goal with |- context [if ?b then _ else _] => destruct b end.
  - apply (safe_ret false unit any); [exact I|auto].
  - apply X; auto. apply safe_wrap, safe_PI.
  - apply X; auto. apply safe_wrap, safe_CDSect.
  - apply X; auto. apply safe_wrap, safe_comment.
  - apply X; auto. apply safe_wrap, safe_element; auto. apply eff_content.
  - apply X; auto. apply safe_wrap, safe_reference; auto.
  - apply X; auto. apply safe_charData.
Qed.
Lemma safe_misc : forall k n, safe k any (parseMisc E S H n).
Proof.
  intros k. induction n as [|n IH]; cbn [parseMisc]; [fsolve|].
  eapply safe_bind with (Q := any); [apply safe_get|]. intros d _. destruct d; [fsolve|].
  assert (X : forall A (m : M S A), safe k any m -> safe k any (bind S m (fun _ => parseMisc E S H n))).
  { intros A m Hm. eapply safe_bind; [exact Hm|]. intros _ _. exact IH. }
  intros s Hs. unfold sat. cbv zeta. repeat match goal with |- context [if ?b then _ else _] => destruct b end.
  - apply X; auto. apply safe_wrap, safe_PI.
  - apply X; auto. apply safe_wrap, safe_comment.
  - apply X; auto. apply safe_skip.
  - apply (safe_ret k unit any); [exact I|auto].
Qed.

(* ---- the internal subset ---- *)
Lemma safe_queryE : forall k n, safe k any (queryEntity S H n).
Proof.
  intros k n s (A1 & A2 & A3). unfold sat, queryEntity. destruct (GQ (hs s) (the_view S s) n A2) as [B1 B2].
  destruct (h_getEntity _ _ _ _) as [h' a]. cbn [fst snd] in *. destruct a; [|congruence]. cbn. triv. repeat split; auto.
Qed.
Lemma safe_queryP : forall k n, safe k any (queryPEntity S H n).
Proof.
  intros k n s (A1 & A2 & A3). unfold sat, queryPEntity. destruct (GP (hs s) (the_view S s) n A2) as [B1 B2].
  destruct (h_getPEntity _ _ _ _) as [h' a]. cbn [fst snd] in *. destruct a; [|congruence]. cbn. triv. repeat split; auto.
Qed.
Lemma safe_name : forall k, safe k any (lift S (pwrap (parseName E))).
Proof. intros. apply safe_lift; [apply pnp_wrap, pnp_scanName|apply psuf_wrap, psuf_name; auto]. Qed.
Lemma safe_PERef : forall k, safe k any (parsePEReference E S H).
Proof.
  intros k. unfold parsePEReference. eapply safe_bind; [fsolve|]. intros c _. destruct (negb _); [fsolve|].
  eapply safe_bind; [fsolve|]. intros _ _. eapply safe_bind; [apply safe_name|]. intros nm _.
  eapply safe_bind; [fsolve|]. intros c2 _. destruct (negb _); [fsolve|].
  eapply safe_bind; [fsolve|]. intros _ _. eapply safe_bind; [apply safe_queryP|]. intros a _. cbv zeta.
  eapply safe_bind; [fsolve|]. intros sa _. eapply safe_bind; [fsolve|]. intros pe _.
  destruct (if snd a then None else fst a); [apply safe_modify; auto|]. destruct (_ || _); [fsolve|apply safe_modify; auto].
Qed.
Lemma safe_unquoted : forall k n, safe k any (unquotedEntity E S H n).
Proof.
  intros k n. unfold unquotedEntity. eapply safe_bind; [fsolve|]. intros c _. destruct (_ && _); [fsolve|].
  eapply safe_bind; [fsolve|]. intros _ _. eapply safe_bind; [fsolve|]. intros [|] _; [|fsolve].
  eapply safe_bind; [fsolve|]. intros b _. destruct (negb b); [fsolve|]. eapply safe_bind; [apply safe_name|]. intros; fsolve.
Qed.
Lemma safe_entityDecl : safe true any (parseEntityDecl E S H).
Proof.
  unfold parseEntityDecl. eapply safe_bind; [fsolve|]. intros ok _. destruct (negb ok); [fsolve|].
  eapply safe_bind; [fsolve|]. intros b _. destruct (negb b); [fsolve|]. eapply safe_bind; [fsolve|]. intros c _.
  eapply safe_bind with (Q := any); [repeat fstep|]. intros isP _.
  eapply safe_bind; [apply safe_name|]. intros name _. destruct (mem_byte _ _); [fsolve|].
  eapply safe_bind; [fsolve|]. intros b3 _. destruct (negb b3); [fsolve|]. eapply safe_bind; [fsolve|]. intros c2 _.
  eapply safe_bind with (Q := any).
  { destruct (_ || _).
    - eapply safe_bind; [apply safe_liftt; [apply psafe_try, psafe_entityValue|apply psuf_try, psuf_entityvalue; auto]|]. intros [e|[lit v]] _; repeat fstep.
    - eapply safe_bind with (Q := any); [destruct isP; [fsolve|apply safe_unquoted]|]. intros; fsolve. }
  intros literal _. eapply safe_bind; [fsolve|]. intros _ _. eapply safe_bind; [fsolve|]. intros c3 _. destruct (negb _); [fsolve|].
  eapply safe_bind; [fsolve|]. intros _ _. eapply safe_bind with (Q := any); [destruct isP; [apply safe_queryP|apply safe_queryE]|].
  intros a _. destruct (fst a) as [e|]; [|fsolve]. intros s (A1 & A2 & A3). unfold sat, modify, J. cbn. triv.
Qed.
(* what follows white space *)
Definition after_blank (l : list Z) : Prop := exists w, In w [32; 13; 10; 9] /\ tame (w :: l).
Lemma blank_in : forall c, isBlankCh c = true -> In c [32; 13; 10; 9].
Proof. intros c Hc. unfold isBlankCh in Hc. cbn. lia. Qed.
Lemma skip_after : forall l, isBlankCh (peek E l) = true -> tame l -> after_blank (dropW isBlankCh l).
Proof.
  intros l Hb Hl. destruct l as [|c t]; [cbn in Hb; destruct (ok_eofr E OK) as [e|e]; rewrite e in Hb; discriminate|]. cbn in Hb.
  revert c Hb Hl. induction t as [|d t IH]; intros c Hb Hl.
  - cbn [dropW]. rewrite Hb. exists c. split; [apply blank_in; auto|auto].
  - cbn [dropW]. rewrite Hb. destruct (isBlankCh d) eqn:Hd.
    + specialize (IH d Hd ltac:(eapply tame_suffix; [exact Hl|exists [c]; auto])). cbn [dropW] in IH. rewrite Hd in IH. exact IH.
    + exists c. split; [apply blank_in; auto|auto].
Qed.
Lemma sat_skip_after : forall s, J true s -> isBlankCh (peek E (inp s)) = true -> sat true (fun _ s' => after_blank (inp s')) (mskip S) s.
Proof.
  intros s Hs Hb. destruct (safe_skip true s Hs) as (F1 & F2 & _). s3; auto. intros a _. apply skip_after; auto. apply J_tame; auto.
Qed.
Lemma sat_peek : forall k s, J k s -> sat k (fun c s' => s' = s /\ c = peek E (inp s)) (mpeek E S) s.
Proof. intros k s Hs. destruct (safe_peek k s Hs) as (F1 & F2 & _). s3; auto. intros a Ha. cbn in Ha |- *. inversion Ha. split; auto. destruct s; reflexivity. Qed.
Lemma sat_consume : forall k p s, J k s -> sat k (fun ok s' => ok = false -> s' = s) (mconsume S p) s.
Proof.
  intros k p s Hs. destruct (safe_consume k p s Hs) as (F1 & F2 & _). s3; auto. intros a Ha ->. unfold mconsume, lift, pconsume in *.
  destruct (has_prefix p (inp s)); cbn in *; [discriminate|]. destruct s; reflexivity.
Qed.
Lemma sat_default : forall n s, J true s -> after_blank (inp s) ->
  sat true (fun dv _ => attrNormalizeSpace (snd dv) <> Pan) (parseDefaultDecl E S H n) s.
Proof.
  intros n s Hs Ha. unfold parseDefaultDecl.
  eapply sat_bind; [apply sat_consume; auto|]. intros rq s1 _ _ Q1 I1. destruct rq; [apply sat_ret; auto; discriminate|]. rewrite (Q1 eq_refl) in *. clear s1 Q1 I1.
  eapply sat_bind; [apply sat_consume; auto|]. intros im s1 _ _ Q1 I1. destruct im; [apply sat_ret; auto; discriminate|]. rewrite (Q1 eq_refl) in *. clear s1 Q1 I1.
  eapply sat_bind; [apply sat_consume; auto|]. intros fx s1 _ _ Q1 I1.
  eapply sat_bind with (Q := fun _ s' => after_blank (inp s')).
  { destruct fx; [|rewrite (Q1 eq_refl) in *; apply sat_ret; auto]. clear Q1.
    eapply sat_bind; [apply sat_peek; auto|]. intros c s2 _ _ [-> ->] _. destruct (isBlankCh (peek E (inp s1))) eqn:Hb; cbn [negb]; [|apply sat_fail; auto].
    eapply sat_bind; [apply sat_skip_after; auto|]. intros x s3 _ _ Q3 I3. apply sat_ret; auto. }
  intros deftype s9 _ _ (w & Hw & Ht) Hs9. clear s Hs Ha s1 Q1 I1. rename s9 into s, Hs9 into Hs.
  eapply sat_bind; [apply sat_peek; auto|]. intros q s1 _ _ [-> ->] _.
  destruct ((peek E (inp s) =? 34) || (peek E (inp s) =? 39)) eqn:Hq; cbn [negb]; [|apply sat_fail; auto].
  apply peek_quote in Hq as (t & Hl & Hq). set (q := peek E (inp s)) in *. clearbody q.
  eapply sat_bind; [apply safe_adv; auto|]. intros [] s' _ Es' _ Hs'. unfold madvance, lift, padvance in Es'. cbn [fst snd] in Es'. rewrite Hl, advance_1 in Es'. subst s'.
  eapply sat_bind; [apply sat_wrap, (value_loop true n q false [] false 0 _ Hs'); intros; discriminate|]. cbn [inp set_inp].
  intros [v e] s2 _ _ Hv I2.
  eapply sat_bind; [apply sat_peek; auto|]. intros c s3 _ _ [-> ->] _. destruct (Z.eqb_spec (peek E (inp s2)) q) as [Hc|_]; cbn [negb]; [|apply sat_fail; auto].
  eapply sat_bind; [apply safe_adv; auto|]. intros [] s4 _ _ _ I4. apply sat_ret; auto. cbn [fst snd].
  intros Hn. apply normalize_pan in Hn as [N1 N2]. rewrite Hl in Ht.
  assert (Ht2 : tame t) by (eapply tame_suffix; [exact Ht|exists [w; q]; auto]).
  destruct (Hv Ht2 N1 N2) as (_ & rho & m & R1 & R2 & R3 & R4). destruct m as [|m]; [exfalso; apply R3; auto|].
  destruct (inp s2) as [|x r].
  { cbn in Hc. subst q. destruct (ok_eofr E OK) as [e0|e0]; rewrite e0 in Hq; destruct Hq; discriminate. }
  cbn in Hc. subst x. destruct (Ht [] _ eq_refl) as (_ & _ & _ & C). eapply C; eauto.
Qed.
Lemma safe_addDefault : forall e a v, safe true any (addAttributeDefault S H e a v).
Proof.
  intros e a v. unfold addAttributeDefault. eapply safe_bind; [fsolve|]. intros sp _. destruct (lookupSpecial _ _); [fsolve|].
  destruct (prefix_local a) as [p l]. intros s (A1 & A2 & A3). unfold sat. destruct (GA (hs s) l p v A2) as [B1 B2].
  destruct (h_createAttr _ _ _ _ _) as [h' o]. cbn [fst snd] in *. destruct o; try congruence; cbn; triv; repeat split; auto.
Qed.
Lemma safe_attlist : forall n elem, safe true any (attlistLoop E S H n elem).
Proof.
  induction n as [|n IH]; intros elem; cbn [attlistLoop]; [fsolve|].
  eapply safe_bind; [fsolve|]. intros c _. destruct (c =? 62); [fsolve|].
  eapply safe_bind; [apply safe_lift; [apply pnp_else, pnp_scanName|apply psuf_else, psuf_name; auto]|]. intros att _.
  eapply safe_bind; [fsolve|]. intros c1 _. destruct (negb _); [fsolve|]. eapply safe_bind; [fsolve|]. intros _ _.
  eapply safe_bind; [apply safe_lift; [apply pnp_wrap, pnp_attrType|apply psuf_wrap, psuf_attrtype; auto]|]. intros [typ enum] _.
  intros s Hs. eapply sat_bind; [apply sat_peek; auto|]. intros c2 s1 _ _ [-> ->] _.
  destruct (isBlankCh (peek E (inp s))) eqn:Hb; cbn [negb]; [|apply safe_failw; auto].
  eapply sat_bind; [apply sat_skip_after; auto|]. intros ? s2 _ _ Q2 I2.
  eapply sat_bind; [apply sat_wrap, sat_default; auto|]. cbn beta. intros [def dv0] s3 _ _ Q3 I3. cbn [snd] in Q3. revert s3 I3.
  match goal with |- forall s3, J true s3 -> sat _ _ ?m s3 => change (safe true any m) end.
  eapply safe_bind with (Q := any); [destruct (_ && _); [apply (safe_mlift _ _ any); auto|fsolve]|]. intros dv _.
  eapply safe_bind; [fsolve|]. intros c3 _. eapply safe_bind with (Q := any); [repeat fstep|]. intros _ _.
  eapply safe_bind; [fsolve|]. intros _ _. eapply safe_bind with (Q := any); [destruct (_ && _); [apply safe_addDefault|fsolve]|]. intros _ _.
  eapply safe_bind with (Q := any).
  { intros s0 (A1 & A2 & A3). unfold sat, modify, J. cbn. triv. repeat split; auto. destruct A3 as [A3|[A3 _]]; [auto|discriminate]. }
  intros _ _. eapply safe_bind; [fsolve|]. intros c4 _. destruct (_ =? _); [fsolve|apply IH].
Qed.
Lemma safe_attListDecl : forall n, safe true any (parseAttributeListDecl E S H n).
Proof.
  intros n. unfold parseAttributeListDecl. eapply safe_bind; [fsolve|]. intros ok _. destruct (negb ok); [fsolve|].
  eapply safe_bind; [fsolve|]. intros c _. destruct (negb _); [fsolve|]. eapply safe_bind; [fsolve|]. intros _ _.
  eapply safe_bind; [apply safe_name|]. intros elem _. eapply safe_bind; [fsolve|]. intros _ _. apply safe_attlist.
Qed.
Lemma safe_elementDecl : forall n, safe true any (parseElementDecl E S H n).
Proof.
  intros n. unfold parseElementDecl. eapply safe_bind; [apply safe_liftt; [apply psafe_elementDecl|apply psuf_elementdecl; auto]|].
  intros [[nm t] c] _. fsolve.
Qed.
Lemma safe_markup : forall n, safe true any (parseMarkupDecl E S H n).
Proof.
  intros n s Hs. unfold sat, parseMarkupDecl. cbv zeta.
  assert (X : forall m : M S unit, safe true any m -> safe true any (bind S m (fun _ => wrap S (parsePEReference E S H)))).
  { intros m Hm. eapply safe_bind; [exact Hm|]. intros _ _. apply safe_wrap, safe_PERef. }
  assert (R : safe true any (ret S tt)) by (apply safe_ret; exact I).
  destruct (_ =? 60); [|apply (safe_wrap true _ any _ (safe_PERef true)); auto].
  destruct (_ =? 33).
  - apply X; auto. destruct (_ =? 69).
    + destruct (_ =? 76); [apply safe_wrap, safe_elementDecl|]. destruct (_ =? 78); [apply safe_wrap, safe_entityDecl|exact R].
    + destruct (_ =? 65); [apply safe_wrap, safe_attListDecl|]. destruct (_ =? 45); [apply safe_wrap, safe_comment|exact R].
  - destruct (_ =? 63); [apply (safe_PI true); auto|apply (safe_wrap true _ any _ (safe_PERef true)); auto].
Qed.
Lemma safe_subset : forall n, safe true any (subsetLoop E S H n).
Proof.
  induction n as [|n IH]; cbn [subsetLoop]; [fsolve|].
  eapply safe_bind with (Q := any); [apply safe_get|]. intros d _. eapply safe_bind; [fsolve|]. intros c _. destruct (_ || _); [fsolve|].
  eapply safe_bind; [fsolve|]. intros _ _. eapply safe_bind; [apply safe_wrap, safe_markup|]. intros _ _.
  eapply safe_bind; [apply safe_wrap, safe_PERef|]. intros _ _. apply IH.
Qed.
Lemma safe_internal : forall n, safe true any (parseInternalSubset E S H n).
Proof.
  intros n. unfold parseInternalSubset. eapply safe_bind; [fsolve|]. intros c _. eapply safe_bind with (Q := any).
  - destruct (negb _); [fsolve|]. eapply safe_bind; [fsolve|]. intros _ _. eapply safe_bind; [apply safe_subset|]. intros _ _. repeat fstep.
  - repeat fstep.
Qed.
Lemma safe_docType : safe true any (parseDocTypeDecl E S H).
Proof.
  unfold parseDocTypeDecl. eapply safe_bind; [fsolve|]. intros ok _. destruct (negb ok); [fsolve|]. eapply safe_bind; [fsolve|]. intros _ _.
  eapply safe_bind; [apply safe_lift; [apply pnp_else, pnp_scanName|apply psuf_else, psuf_name; auto]|]. intros name _.
  eapply safe_bind; [apply safe_modify; auto|]. repeat fstep.
Qed.
Lemma safe_DTD : forall n, safe true any (parseDTD E S H n).
Proof.
  intros n. unfold parseDTD. eapply safe_bind; [apply safe_modify; auto|]. intros _ _.
  eapply safe_bind; [apply safe_wrap, safe_docType|]. intros _ _. eapply safe_bind; [fsolve|]. intros sub _.
  eapply safe_bind with (Q := any); [destruct sub; [apply safe_wrap, safe_internal|fsolve]|]. intros _ _.
  eapply safe_bind; [apply safe_modify; auto|]. intros _ _. eapply safe_bind; [fsolve|]. intros name _. eapply safe_bind; [fsolve|]. intros _ _.
  eapply safe_bind; [apply safe_modify; auto|]. intros _ _. eapply safe_bind; [apply safe_modify|].
  { intros s. cbn. repeat split; auto. intros ->. reflexivity. }
  intros _ _. apply safe_wrap, safe_misc.
Qed.

(* ---- the document ---- *)
Variable bytes : str.
Hypothesis BY : forall c rest, suffix rest bytes -> refs_ok E G (decode E c rest) /\ (no_doctype (decode E c rest) \/ tame (decode E c rest)).
Hypothesis PC : forall a r, bytes = a ++ s_ "<?xml" ++ r -> late_percent bytes.

Definition late_if (s : pst S) : Prop := forall r, inp s = s_ "<?xml" ++ r -> late_percent (inp s).
Definition K (s : pst S) : Prop := good (hs s) /\ attsSpecial s = [] /\ suffix (inp s) bytes.
Definition D_ (s : pst S) : Prop := J false s /\ (no_doctype (inp s) \/ tame (inp s)).
Lemma D_suffix : forall (s : pst S) l, no_doctype (inp s) \/ tame (inp s) -> suffix l (inp s) -> no_doctype l \/ tame l.
Proof. intros s l [Hd|Hd] Hl; [left; eapply doctype_suffix; eauto|right; eapply tame_suffix; eauto]. Qed.

Theorem Parse_safe : forall n h, good h -> fst (Parse E S H n h bytes) <> Pan.
Proof.
  intros n h Hh. unfold Parse, parseDocument.
  eapply pre_bind with (K' := fun _ s => K s /\ inp s = bytes).
  { unfold emit, wrap, emit_raw. destruct (GE h (the_view S (init S h bytes)) ESetDocumentLocator Hh) as [G1 G2].
    cbn [hs init]. destruct (h_event _ _ _ _) as [h' r]. cbn [fst snd] in *. destruct r; try congruence; cbn; (split; [discriminate|]); intros a Ha; try discriminate;
    (split; [|reflexivity]); repeat split; auto; apply suffix_refl. }
  intros _ s [Hs Hi]. eapply pre_bind with (K' := fun _ s => K s /\ late_if s).
  { destruct Hs as (K1 & K2 & K3). destruct (detectEncoding (inp s)) as [[enc rest]|] eqn:Hd; cbn; (split; [discriminate|]); intros _ _.
    - rewrite Hi in *. apply detect_late in Hd as (u & Hb & Hu). split; [repeat split; auto; cbn; exists u; auto|].
      unfold late_if. cbn [inp set_inp]. intros r Hr. eapply late_drop; [|exact Hu]. rewrite <- Hb. apply (PC u r). congruence.
    - split; [repeat split; auto|]. intros r Hr. rewrite Hi in *. eapply (PC []). eauto. }
  clear s Hs Hi. intros detected s [Hs Hl]. eapply pre_bind with (K' := fun _ s => K s /\ late_if s).
  { cbn. split; [discriminate|auto]. }
  clear s Hs Hl. intros [|] s [Hs Hl]; [discriminate|].
  eapply pre_bind with (K' := fun b s => K s /\ (b = true -> late_percent (inp s))).
  { unfold mhas, lift, phas. cbn [fst snd]. split; [discriminate|]. intros a Ha. assert (Hb : a = has_prefix (s_ "<?xml") (inp s)) by congruence. subst a. split; [exact Hs|]. intros Hp. apply has_prefix_true in Hp as (r & Hr). eapply Hl; eauto. }
  clear s Hs Hl. intros decl s [Hs Hl]. eapply pre_bind with (K' := fun _ s => K s).
  { destruct decl; [|cbn; split; [discriminate|auto]]. specialize (Hl eq_refl). unfold bind, lift.
    assert (N1 : fst (pwrap (parseXMLDecl E) (inp s)) <> Pan).
    { pose proof (bend_xmldecl E OK (inp s) Hl) as X. unfold pwrap. destruct (parseXMLDecl E (inp s)) as [[x|e| |] l']; cbn in *; congruence. }
    pose proof (psuf_wrap _ _ (psuf_xmldecl E OK) (inp s)) as N2.
    destruct (pwrap (parseXMLDecl E) (inp s)) as [[x|e| |] l]; cbn [fst snd] in *; try congruence; (split; [discriminate|]); intros a Ha; try discriminate.
    destruct Hs as (K1&K2&K3); unfold K; cbn; repeat split; auto; eapply suffix_trans; eauto. }
  clear s Hs Hl. intros _ s Hs. eapply pre_bind with (K' := fun _ s => D_ s).
  { unfold wrap, switchEncoding. destruct (Load _ _) as [c|]; cbn; (split; [discriminate|]); intros a Ha; [|discriminate].
    destruct Hs as (K1 & K2 & K3). destruct (BY c (inp s) K3). unfold D_, J; cbn. split; [split; [auto|split; auto]|auto]. }
  clear s Hs. intros _ s [Hs Hd]. eapply pre_bind with (K' := fun _ s => D_ s).
  { destruct (safe_emit false EStartDocument s Hs) as (A1 & A2 & _). split; auto. intros _ _. split; auto. eapply D_suffix; [exact Hd|apply msuf_emit]. }
  clear s Hs Hd. intros _ s [Hs Hd]. eapply pre_bind with (K' := fun _ s => D_ s).
  { destruct (safe_wrap _ _ _ _ (safe_misc false n) s Hs) as (A1 & A2 & _). split; auto. intros _ _. split; auto. eapply D_suffix; [exact Hd|apply msuf_wrap, msuf_misc; auto]. }
  clear s Hs Hd. intros _ s [Hs Hd]. eapply pre_bind with (K' := fun b s => J false s /\ (b = true -> tame (inp s))).
  { unfold mhas, lift, phas. cbn [fst snd]. split; [discriminate|]. intros a Ha. assert (Hb : a = has_prefix (s_ "<!DOCTYPE") (inp s)) by congruence. subst a. split; [exact Hs|].
    intros Hp. apply has_prefix_true in Hp as (r & Hr). destruct Hd as [Hd|Hd]; [exfalso; apply (Hd [] r); exact Hr|exact Hd]. }
  clear s Hs Hd. intros dt s [Hs Hd]. eapply pre_bind with (K' := fun _ s => J false s).
  { destruct dt; [|cbn; split; [discriminate|auto]]. destruct (safe_DTD n s (J_up _ _ Hs (Hd eq_refl))) as (A1 & A2 & _). split; auto. intros _ _. apply J_weak; auto. }
  clear s dt Hs Hd. intros _ s Hs.
  match goal with |- fst (?m s) <> Pan => assert (X : safe false any m); [|apply X; auto] end.
  eapply safe_bind; [fsolve|]. intros _ _. eapply safe_bind; [fsolve|]. intros c _.
  destruct (negb _); [fsolve|]. eapply safe_bind; [apply safe_wrap, safe_element; [apply eff_content|apply safe_content]|]. intros _ _.
  eapply safe_bind; [apply safe_wrap, safe_misc|]. intros _ _. eapply safe_bind with (Q := any); [apply safe_get|]. intros fi _. destruct (negb fi); fsolve.
Qed.
End M.
End D.

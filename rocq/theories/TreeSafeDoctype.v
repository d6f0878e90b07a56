(* Parsing into the tree builder does not panic, also on inputs with a document
   type declaration, except where the list of namespaces of an element has a nil
   entry; nothing may refer to a declared entity, and there is no processing
   instruction in the declaration. *)
From Coq Require Import Permutation.
From Verif Require Import Base Utf8 Utf8Proofs Encoding XmlSpec EscapeProofs Escape Scan ScanProofs Parser Effects LexProofs Heap TreeBuilder Mirror XmlGrammar
  Grammar TextProofs Complete DocComplete NoPanic Loose LooseLex LooseProofs LooseTree XmlElem TreeSafe TreeSafeParse TreeSafeDtd Doctype DoctypeTree LooseDtd LooseSubset
  LooseBody LooseBodyProofs.
From Verif Require DtdSafe.
From Coq Require Import ZifyBool.
Local Open Scope Z_scope.

(* ---- specification ---- *)
(* no processing instruction *)
Definition pi_free (l : list Z) : Prop := forall a b, l <> a ++ s_ "<?" ++ b.
Notation tame := DtdSafe.tame.
Notation nobody := (fun _ : str => False).

(* no processing instruction after an opening bracket *)
Definition early_pis (l : list Z) : Prop := forall a b, l = a ++ s_ "[" ++ b -> pi_free b.
(* what the theorems say about inputs holds of those in which only predefined
   entities are referred to, none of the constructs of [tame] follows a document
   type declaration, and no processing instruction follows an opening bracket
   after it; f, the fuel for copying text, is large enough *)
Definition fitting (E : env) (f : nat) (l : list Z) : Prop :=
  refs_ok E nobody l /\ (no_doctype l \/ tame l /\ forall a b, l = a ++ s_ "<!DOCTYPE" ++ b -> early_pis b) /\ (5 * List.length l < f)%nat.

Lemma early_suffix l l' : early_pis l -> suffix l' l -> early_pis l'.
Proof. intros H (p & ->) a b ->. apply (H (p ++ a) b). rewrite <- app_assoc. reflexivity. Qed.
Lemma free_suffix l l' : pi_free l -> suffix l' l -> pi_free l'.
Proof. intros H (p & ->) a b ->. apply (H (p ++ a) b). rewrite <- app_assoc. reflexivity. Qed.

(* ---- values of attributes without references to entities ---- *)
Fixpoint weight (ws : list str) : nat := match ws with [] => 0 | w :: t => (List.length w + weight t)%nat end.
Lemma spaced_length : forall ws, (List.length (spaced ws) <= weight ws + (List.length ws - 1))%nat.
Proof.
  induction ws as [|w ws IH]; [cbn; lia|]. destruct ws as [|w' ws]; [cbn; lia|].
  change (spaced (w :: w' :: ws)) with (w ++ [32] ++ spaced (w' :: ws)). rewrite !app_length. cbn [List.length weight] in *. lia.
Qed.
Lemma split_length : forall s cur, (weight (split_spaces cur s) + (List.length (split_spaces cur s) - 1) <= List.length cur + List.length s)%nat.
Proof.
  induction s as [|c s IH]; intros cur; cbn [split_spaces].
  - destruct cur; cbn; lia.
  - destruct (c =? 32).
    + specialize (IH []). cbn [List.length] in *. destruct cur as [|x cur]; cbn [List.length weight] in *; lia.
    + specialize (IH (cur ++ [c])). rewrite app_length in IH. cbn [List.length] in *. lia.
Qed.
Lemma spaced_short v : (List.length (spaced (tokens v)) <= List.length v)%nat.
Proof. pose proof (spaced_length (tokens v)). pose proof (split_length v []). unfold tokens in *. cbn [List.length] in *. lia. Qed.
Definition plain (v : str) : Prop := exists rs, Forall (fun r => valid_rune r = true) rs /\ v = utf8 (amp_escaped rs).
Lemma plain_tokens v : plain v -> plain (spaced (tokens v)).
Proof. exact (plain_spaced v). Qed.

Section V.
Variable E : env.
Hypothesis OK : env_ok E.
Hypothesis NC : forall c, isLetter E c || isDigit E c = true -> xml_char c = true.
Variable honest : Prop.

Lemma dlit_plain q lit v : dlit E honest q lit v -> forall rest, refs_ok E nobody (lit ++ rest) -> lattlit all q lit v.
Proof.
  induction 1 as [|c t v A1 A2 A3 A4 A5 D IH|c t v B D IH|t x t' v R D IH|n z t w v X Z N W D IH]; intros rest Rf.
  - constructor.
  - constructor; auto. eapply IH. eapply refs_suffix; [exact Rf|]. exists [c]. reflexivity.
  - constructor; auto; [right; exact I|]. eapply IH. eapply refs_suffix; [exact Rf|]. exists [c]. reflexivity.
  - assert (Sx : exists y, t = y ++ t').
    { clear - R. destruct R as [t0 x0 s0 R _|t0 v s0 R L _|t0 v s0 R L _|n x0 s0 R _ _].
      - destruct (reference_legal _ _ _ R) as (p & -> & _). exists p. reflexivity.
      - destruct (number_suffix _ _ _ _ _ _ _ R) as (y & ->). exists (35 :: y). reflexivity.
      - destruct (number_suffix _ _ _ _ _ _ _ R) as (y & ->). exists (35 :: 120 :: y). reflexivity.
      - exists (n ++ [0; 59]). rewrite <- app_assoc. reflexivity. }
    assert (L : lattlit all q t' v).
    { eapply IH. eapply refs_suffix; [exact Rf|]. destruct Sx as (y & ->). exists (38 :: y). cbn. rewrite <- app_assoc. reflexivity. }
    destruct (Z.eqb_spec x 38) as [->|Hx]; [eapply ll_amp; eauto|eapply ll_ref; eauto].
  - exfalso. destruct X as [X _]. destruct n as [|c n]; [destruct X|]. destruct X as [X1 X2].
    destruct (Rf [] c n (z ++ [59] ++ t ++ rest)) as [P|[]].
    + cbn. rewrite <- !app_assoc. reflexivity.
    + unfold nm_start. unfold name_start in X1. destruct (isLetter E c); [reflexivity|]. cbn [orb] in *. lia.
    + eapply Forall_impl; [|exact X2]. cbn. intros x Hx. unfold nm_part. unfold name_part in Hx. destruct (isLetter E x); [reflexivity|]. destruct (isDigit E x); [reflexivity|]. cbn [orb] in *. lia.
    + assert (P0 : nm_part E 59 = false /\ nm_part E 0 = false) by (unfold nm_part; rewrite !(ok_letter E OK), !(ok_digit E OK) by lia; split; reflexivity).
      destruct Z as [->| ->]; apply P0.
    + exact (N P).
Qed.
Lemma bvalue_plain w v rest : bvalue E honest w v -> refs_ok E nobody (w ++ rest) -> lvalue all w v.
Proof.
  intros [|q lit v0 Q D] R; [constructor; exact I|]. constructor; [exact Q|]. eapply dlit_plain; [exact D|].
  eapply refs_suffix; [exact R|]. exists [q]. rewrite <- !app_assoc. reflexivity.
Qed.
Variable tok : str -> str -> bool.
Lemma battr_plain el w p l v rest : battr E honest tok el w p l v -> refs_ok E nobody (w ++ rest) ->
  (exists v0, lattr all E w p l v0) /\ plain v /\ (List.length v <= 5 * List.length w)%nat.
Proof.
  intros [n p0 l0 e1 c e2 w0 v0 Q B1 C B2 V] R.
  assert (L : lattr all E (n ++ e1 ++ [c] ++ e2 ++ w0) p0 l0 v0).
  { constructor; auto; [destruct C as [C|C]; [left; exact C|right; split; [exact I|exact C]]|]. eapply bvalue_plain; [exact V|].
    eapply refs_suffix; [exact R|]. exists (n ++ e1 ++ [c] ++ e2). rewrite <- !app_assoc. reflexivity. }
  split; [exists v0; exact L|]. destruct (lattr_facts _ _ _ _ _ L) as [P Ln]. destruct (tok el (utf8 l0)); [|split; [exact P|exact Ln]].
  split; [apply plain_tokens, P|]. pose proof (spaced_short v0). lia.
Qed.
Lemma batts_facts el tab t a d tab' : batts E honest tok el tab t a d tab' -> forall rest, refs_ok E nobody (t ++ rest) ->
  (exists a', mirrors_atts a a') /\ forall x y w, In (AAttr x y w) a -> (List.length w <= 5 * List.length t)%nat.
Proof.
  assert (St : forall w0 p0 l0 v0 b s (a : list attr) x1 y1, plain v0 -> (List.length v0 <= 5 * List.length w0)%nat -> battr E honest tok el w0 p0 l0 v0 -> (exists a', mirrors_atts a a') ->
    (forall x y w, In (AAttr x y w) a -> (List.length w <= 5 * List.length s)%nat) ->
    (exists a', mirrors_atts (AAttr x1 y1 v0 :: a) a') /\
    forall x y w, In (AAttr x y w) (AAttr x1 y1 v0 :: a) -> (List.length w <= 5 * List.length (b ++ w0 ++ s))%nat).
  { intros w0 p0 l0 v0 b s a0 x1 y1 (rs & V & Ev) Ln A (a' & M) L. split.
    - eexists. rewrite Ev. constructor; [exact V|exact M].
    - intros x y w [X|X]; rewrite !app_length; [injection X as _ _ <-; lia|]. specialize (L _ _ _ X). lia. }
  assert (Sf : forall (b w s rest : list Z), suffix (s ++ rest) ((b ++ w ++ s) ++ rest)) by (intros b w s rest; exists (b ++ w); rewrite <- !app_assoc; reflexivity).
  assert (Sw : forall (b w s rest : list Z), suffix (w ++ s ++ rest) ((b ++ w ++ s) ++ rest)) by (intros b w s rest; exists b; rewrite <- !app_assoc; reflexivity).
  induction 1 as [tab b B|tab b w p l v s a d tab' B A N1 N2 L IH|tab b w l v s a d tab' B A N1 N2 N3 N4 U Lk Sp L IH|tab b w s a d tab' B A Sp L IH
    |tab b w v B A|tab b w v c s a d tab' B A Bc L IH]; intros rest R.
  - split; [exists []; constructor|intros x y w []].
  - destruct (IH rest) as [I1 I2]; [eapply refs_suffix; [exact R|apply Sf]|]. destruct (battr_plain _ _ _ _ _ (s ++ rest) A) as (_ & P & Q); [eapply refs_suffix; [exact R|apply Sw]|].
    eapply St; eassumption.
  - destruct (IH rest) as [I1 I2]; [eapply refs_suffix; [exact R|apply Sf]|]. split; [exact I1|]. intros x y w0 X. specialize (I2 _ _ _ X). rewrite !app_length. lia.
  - destruct (IH rest) as [I1 I2]; [eapply refs_suffix; [exact R|apply Sf]|]. split; [exact I1|]. intros x y w0 X. specialize (I2 _ _ _ X). rewrite !app_length. lia.
  - split; [exists []; constructor|intros x y w0 []].
  - destruct (IH rest) as [I1 I2]; [eapply refs_suffix; [exact R|apply Sf]|]. destruct (battr_plain _ _ _ _ _ ((c :: s) ++ rest) A) as (_ & P & Q); [eapply refs_suffix; [exact R|apply Sw]|].
    eapply St; eassumption.
Qed.
Lemma batts_nsok el tab t a d tab' : batts E honest tok el tab t a d tab' -> forall r, refs_ok E nobody (t ++ r) -> nsok E tab (t ++ r) ->
  List.length tab' = (List.length tab + List.length d)%nat /\ nsok E tab' r.
Proof.
  assert (Sf : forall (b w s rest : list Z), suffix (s ++ rest) (b ++ w ++ s ++ rest)) by (intros b w s rest; exists (b ++ w); rewrite <- !app_assoc; reflexivity).
  induction 1 as [tab b B|tab b w p l v s a d tab' B A N1 N2 L IH|tab b w l v s a d tab' B A N1 N2 N3 N4 U Lk Sp L IH|tab b w s a d tab' B A Sp L IH
    |tab b w v B A|tab b w v c s a d tab' B A Bc L IH]; intros r R N; rewrite <- ?app_assoc in N, R.
  - split; [cbn; lia|eapply nsok_suffix; [exact N|apply suffix_app]].
  - apply IH; [eapply refs_suffix; [exact R|apply Sf]|]. eapply nsok_suffix; [exact N|]. apply Sf.
  - assert (N' : nsok E tab (w ++ s ++ r)) by (eapply nsok_suffix; [exact N|apply suffix_app]).
    destruct (battr_plain _ _ _ _ _ (s ++ r) A) as ((v0 & A0) & _); [eapply refs_suffix; [exact R|apply suffix_app]|].
    destruct (nsok_decl E OK NC tab w _ l v0 v (s ++ r) (utf8 l) A0) as [P Q]; [right; auto|exact N'|].
    destruct (IH r) as [I1 I2]; [eapply refs_suffix; [exact R|apply Sf]|exact Q|]. split; [|exact I2]. rewrite I1, P. cbn [List.length]. lia.
  - apply IH; [eapply refs_suffix; [exact R|apply Sf]|]. eapply nsok_suffix; [exact N|]. apply Sf.
  - assert (N' : nsok E tab (w ++ r)) by (eapply nsok_suffix; [exact N|apply suffix_app]).
    destruct (battr_plain _ _ _ _ _ r A) as ((v0 & A0) & _); [eapply refs_suffix; [exact R|apply suffix_app]|].
    destruct (nsok_decl E OK NC tab w _ _ v0 v r [] A0) as [P Q]; [left; auto|exact N'|]. split; [|exact Q]. rewrite P. cbn [List.length]. lia.
  - assert (N' : nsok E tab (w ++ (c :: s) ++ r)) by (eapply nsok_suffix; [exact N|apply suffix_app]).
    destruct (battr_plain _ _ _ _ _ ((c :: s) ++ r) A) as ((v0 & A0) & _); [eapply refs_suffix; [exact R|apply suffix_app]|].
    destruct (nsok_decl E OK NC tab w _ _ v0 v ((c :: s) ++ r) [] A0) as [P Q]; [left; auto|exact N'|].
    destruct (IH r) as [I1 I2]; [eapply refs_suffix; [exact R|]; exists (b ++ w); rewrite <- app_assoc; reflexivity|exact Q|]. split; [|exact I2]. rewrite I1, P. cbn [List.length]. lia.
Qed.
(* the default value of a declaration *)
Lemma default_plain d v t rest : LooseDtd.default_text E honest d v t -> refs_ok E nobody (t ++ rest) -> plain v /\ (List.length v <= 5 * List.length t)%nat.
Proof.
  assert (Lit : forall q lit v0 rest0, LooseDtd.dlit E honest q lit v0 -> refs_ok E nobody (lit ++ rest0) -> plain v0 /\ (List.length v0 <= 5 * List.length lit)%nat).
  { intros q lit v0 rest0 D R. eapply lattlit_facts, dlit_plain; eassumption. }
  intros [| |q lit v0 Q D|b q lit v0 B1 B2 Q D] R.
  - split; [exists []; split; [constructor|reflexivity]|cbn; lia].
  - split; [exists []; split; [constructor|reflexivity]|cbn; lia].
  - destruct (Lit _ _ _ ([q] ++ rest) D) as [P L]; [eapply refs_suffix; [exact R|exists [q]; rewrite <- !app_assoc; reflexivity]|]. split; [exact P|]. rewrite !app_length. lia.
  - destruct (Lit _ _ _ ([q] ++ rest) D) as [P L]; [eapply refs_suffix; [exact R|exists (s_ "#FIXED" ++ b ++ [q]); rewrite <- !app_assoc; reflexivity]|]. split; [exact P|]. rewrite !app_length. lia.
Qed.
End V.

(* ---- the parser ---- *)
Inductive mode := Con | Head | Tail | Gap | Sub.
Section TD.
Variable E : env.
Hypothesis OK : env_ok E.
Hypothesis NC : forall c, isLetter E c || isDigit E c = true -> xml_char c = true.
Hypothesis OV : forall n l, over E n l = [].
(* the fuel of the tree builder, and whether the declarations are watched *)
Variable f : nat.
Variable o : bool.
Notation H := (treeH f).
Notation ok_run := (ok_run o).

(* what reports nothing *)
Definition framed {A} (p : M tb A) : Prop := forall s a s', standing (hs s) -> p s = (Ret a, s') -> hs s' = hs s /\ inSubset s' = inSubset s /\ suffix (inp s') (inp s).
Lemma framed_bind A B (p : M tb A) (g : A -> M tb B) : framed p -> (forall a, framed (g a)) -> framed (bind tb p g).
Proof.
  intros Hp Hg s b s' Hs Hb. apply bind_inv in Hb as (a & s1 & H1 & Hb). destruct (Hp _ _ _ Hs H1) as (A1 & A2 & A3).
  rewrite <- A1 in Hs. destruct (Hg a _ _ _ Hs Hb) as (B1 & B2 & B3). split; [congruence|]. split; [congruence|]. eapply suffix_trans; eassumption.
Qed.
Lemma framed_wrap A (p : M tb A) : framed p -> framed (wrap tb p).
Proof. intros Hp s a s' Hs Hw. apply wrap_inv in Hw. eapply Hp; eassumption. Qed.
Lemma framed_lift A (p : P A) : psuf p -> framed (lift tb p).
Proof. intros Hp s a s' _ Hl. specialize (Hp (inp s)). apply lift_inv in Hl as (l & Hl & ->). rewrite Hl in Hp. cbn. auto. Qed.
Lemma framed_id A (p : M tb A) : (forall s a s', p s = (Ret a, s') -> s' = s) -> framed p.
Proof. intros Hp s a s' _ Hm. apply Hp in Hm as ->. split; [reflexivity|]. split; [reflexivity|apply suffix_refl]. Qed.
Lemma framed_ret A (x : A) : framed (ret tb x). Proof. apply framed_id. intros s a s' Hm. inversion Hm; reflexivity. Qed.
Lemma framed_mlift A (x : outcome gerr A) : framed (mlift tb x). Proof. apply framed_id. intros s a s' Hm. unfold mlift in Hm. inversion Hm; reflexivity. Qed.
Lemma framed_fail A e : framed (fail tb e : M tb A). Proof. apply framed_id. intros s a s' Hm. discriminate. Qed.
Lemma framed_failw A e : framed (failw tb e : M tb A). Proof. apply framed_id. intros s a s' Hm. discriminate. Qed.
Lemma framed_oof A : framed (oof tb : M tb A). Proof. apply framed_id. intros s a s' Hm. discriminate. Qed.
Lemma framed_pan A : framed (pan tb : M tb A). Proof. apply framed_id. intros s a s' Hm. discriminate. Qed.
Lemma framed_stop A B (m : M tb A) : framed (bind tb m (fun _ => pan tb) : M tb B). Proof. apply framed_id. intros s a s' Hm. apply bind_inv in Hm as (x & s1 & _ & Hm). discriminate. Qed.
Lemma framed_get A (g : pst tb -> A) : framed (get tb g). Proof. apply framed_id. intros s a s' Hm. inversion Hm; reflexivity. Qed.
Lemma framed_done : framed (mdone tb). Proof. apply framed_id. intros s a s' Hm. inversion Hm; reflexivity. Qed.
Lemma framed_query n : framed (queryEntity tb H n).
Proof.
  intros s a s' Hs Hm. unfold queryEntity in Hm. destruct (entity_query (hs s) (the_view tb s) n Hs) as [Q _]. change (h_getEntity H) with tb_getEntity in Hm.
  destruct (tb_getEntity (hs s) (the_view tb s) n) as [h r]. cbn [fst] in Q. subst h. destruct r; [|discriminate].
  match type of Hm with _ = (_, ?b) => inversion Hm; subst b; clear Hm end. split; [reflexivity|]. split; [reflexivity|apply suffix_refl].
Qed.
Lemma framed_docEntity n : framed (getEntity tb H n).
Proof. apply framed_id. intros s a s' Hm. unfold getEntity in Hm. destruct (inSubset s =? 0); [inversion Hm; reflexivity|]. destruct (h_docEntity _ _ _); inversion Hm; reflexivity. Qed.
Lemma framed_always A (m : M tb A) p : framed m -> psuf p -> framed (always tb m p).
Proof.
  intros Hm Hp s a s' Hs Ha. unfold always in Ha. destruct (m s) as [[x|e| |] s1] eqn:Em; try discriminate.
  destruct (Hm _ _ _ Hs Em) as (A1 & A2 & A3). specialize (Hp (inp s1)).
  match type of Ha with _ = (_, ?b) => inversion Ha; subst b; clear Ha end. cbn. split; [exact A1|]. split; [exact A2|]. eapply suffix_trans; eassumption.
Qed.
Ltac fr1 := first
  [ apply framed_stop | apply framed_bind | apply framed_wrap | apply framed_ret | apply framed_mlift | apply framed_fail | apply framed_failw | apply framed_oof | apply framed_pan | apply framed_get | apply framed_done
  | apply framed_query | apply framed_docEntity | assumption
  | match goal with |- forall _, _ => intro end | match goal with |- framed (if ?b then _ else _) => destruct b end | match goal with |- framed (let '(_, _) := ?x in _) => destruct x end
  | match goal with |- framed (match ?x with _ => _ end) => destruct x end | progress cbv zeta
  | apply framed_lift; auto with psuf ].
Ltac fr := repeat fr1.
Hint Resolve psuf_wrap psuf_else psuf_name psuf_qname psuf_charref psuf_peek psuf_peekn psuf_has psuf_consume psuf_skip psuf_advance : psuf.
Hint Extern 1 (env_ok _) => exact OK : psuf.
Lemma framed_entityRef : framed (parseEntityRef E tb H).
Proof. unfold parseEntityRef, mpeek, mpeekn, madvance. fr. Qed.
Lemma framed_value n q nz b sp k : framed (attrValueLoop E tb H n q nz b sp k).
Proof. revert q nz b sp k. induction n as [|n IH]; intros q nz b sp k; cbn [attrValueLoop]; [fr|]. unfold mpeek, mpeekn, madvance. repeat first [apply IH|apply framed_entityRef|fr1]. Qed.
Lemma framed_attributeValue n nz : framed (parseAttributeValue E tb H n nz).
Proof.
  unfold parseAttributeValue, parseAttributeValueInternal, mpeek, madvance. fr. apply framed_always; [apply framed_value|].
  intros l0. cbn. destruct (_ =? _); [apply suffix_advance; auto|apply suffix_refl].
Qed.
Lemma framed_attribute n el : framed (parseAttribute E tb H n el).
Proof. unfold parseAttribute, mpeek, madvance, mskip. repeat first [apply framed_attributeValue|fr1]. Qed.
Lemma framed_afterNS : framed (afterNSDecl E tb).
Proof. unfold afterNSDecl, mpeek, mpeekn, mskip, mhas. fr. Qed.
Lemma framed_table g : framed (modify tb (fun s => set_nsTab tb (g s) s)).
Proof. intros s a s' _ Hm. unfold modify in Hm. match type of Hm with _ = (_, ?b) => inversion Hm; subst b; clear Hm end. split; [reflexivity|]. split; [reflexivity|apply suffix_refl]. Qed.
Lemma framed_attrLoop n : forall l a k, framed (attrLoop E tb H n l a k).
Proof.
  induction n as [|n IH]; intros l a k; cbn [attrLoop]; [fr|]. unfold mpeek, mpeekn, madvance, mskip.
  repeat first [apply IH|apply framed_attribute|apply framed_afterNS|apply framed_table|fr1].
Qed.
Lemma framed_default n : framed (parseDefaultDecl E tb H n).
Proof. unfold parseDefaultDecl, parseAttributeValueInternal, mpeek, madvance, mskip, mconsume. repeat first [apply framed_value|fr1]. Qed.

(* ---- what holds while parsing ---- *)
Definition strict (m : mode) : bool := match m with Con => false | _ => true end.
Definition stage (m : mode) (s : pst tb) : Prop := match m with
  | Con => inSubset s = 0
  | Head => early_pis (inp s) /\ inSubset s = 1
  | Tail => early_pis (inp s) /\ inSubset s = 1 /\ has_dtd (hs s)
  | Gap => True
  | Sub => pi_free (inp s) /\ inSubset s = 1 /\ has_dtd (hs s)
  end.
Definition J (m : mode) (s : pst tb) : Prop :=
  DtdSafe.J E tb standing nobody (strict m) s /\ (5 * List.length (inp s) < f)%nat /\ (o = true -> nsok E (rev (nsTab s)) (inp s)) /\ stage m s.
Definition jsat {A} (m : mode) (Q : A -> Prop) (p : M tb A) (s : pst tb) : Prop := ok_run (fun a s' => Q a /\ J m s') (p s).
Definition jsafe {A} (m : mode) (Q : A -> Prop) (p : M tb A) : Prop := forall s, J m s -> jsat m Q p s.
Notation any := DtdSafe.any.

Lemma ok_bind A B (K : A -> pst tb -> Prop) (R : B -> pst tb -> Prop) p (g : A -> M tb B) s :
  ok_run K (p s) -> (forall a s', p s = (Ret a, s') -> K a s' -> ok_run R (g a s')) -> ok_run R (bind tb p g s).
Proof.
  intros [P1 P2] Hg. unfold bind. destruct (p s) as [[a|e| |] s']; cbn [fst snd] in *.
  - apply Hg; [reflexivity|apply P2; reflexivity].
  - split; discriminate.
  - split; [intros _; apply P1; reflexivity|discriminate].
  - split; discriminate.
Qed.
Lemma ok_next A B (K : A -> pst tb -> Prop) (R : B -> pst tb -> Prop) p (g : A -> M tb B) s :
  ok_run K (p s) -> (forall a s', K a s' -> ok_run R (g a s')) -> ok_run R (bind tb p g s).
Proof. intros Hp Hg. eapply ok_bind; [exact Hp|]. intros a s' _ Ka. apply Hg, Ka. Qed.
Lemma ok_wrap A (R : A -> pst tb -> Prop) p s : ok_run R (p s) -> ok_run R (wrap tb p s).
Proof. unfold wrap. intros [P1 P2]. destruct (p s) as [[a|e| |] s']; cbn [fst snd] in *; split; cbn [fst snd]; try discriminate; auto. Qed.
Lemma jsat_bind m A B (Q : A -> Prop) (R : B -> Prop) p (g : A -> M tb B) s :
  jsat m Q p s -> (forall a s', p s = (Ret a, s') -> Q a -> J m s' -> jsat m R (g a) s') -> jsat m R (bind tb p g) s.
Proof. intros Hp Hg. eapply ok_bind; [exact Hp|]. intros a s' Ep [Qa Ja]. apply Hg; auto. Qed.
Lemma jsafe_bind m A B (Q : A -> Prop) (R : B -> Prop) p (g : A -> M tb B) :
  jsafe m Q p -> (forall a, Q a -> jsafe m R (g a)) -> jsafe m R (bind tb p g).
Proof. intros Hp Hg s Hs. eapply jsat_bind; [apply Hp, Hs|]. intros a s' _ Qa Ja. apply Hg; auto. Qed.
Lemma jsat_wrap m A (Q : A -> Prop) p s : jsat m Q p s -> jsat m Q (wrap tb p) s.
Proof. apply ok_wrap. Qed.
Lemma jsafe_wrap m A (Q : A -> Prop) p : jsafe m Q p -> jsafe m Q (wrap tb p).
Proof. intros Hp s Hs. apply jsat_wrap, Hp, Hs. Qed.
Lemma stage_next m (s s' : pst tb) : stage m s -> suffix (inp s') (inp s) -> inSubset s' = inSubset s -> (has_dtd (hs s) -> has_dtd (hs s')) -> stage m s'.
Proof.
  intros St Sx Hi Hd. destruct m; cbn [stage] in *; [congruence| | |exact I|].
  { destruct St as [A1 A2]. split; [eapply early_suffix; eassumption|congruence]. }
  { destruct St as (A1 & A2 & A3). split; [eapply early_suffix; eassumption|]. split; [congruence|auto]. }
  destruct St as (A1 & A2 & A3).
  split; [eapply free_suffix; eassumption|]. split; [congruence|auto].
Qed.
Lemma J_suffix m s l : J m s -> suffix l (inp s) -> J m (set_inp tb l s).
Proof.
  intros (A1 & A2 & A3 & A4) Hl. refine (conj _ (conj _ (conj _ _))); cbn [inp set_inp nsTab].
  - apply DtdSafe.J_suffix; assumption.
  - destruct Hl as (p & Hl). rewrite Hl, app_length in A2. lia.
  - intros Ho. eapply nsok_suffix; [apply A3, Ho|exact Hl].
  - eapply stage_next; [exact A4|exact Hl|reflexivity|auto].
Qed.
Lemma J_standing m s : J m s -> standing (hs s). Proof. intros ((_ & A & _) & _). exact A. Qed.
Lemma jsafe_ret m A (Q : A -> Prop) a : Q a -> jsafe m Q (ret tb a).
Proof. intros Qa s Hs. split; [discriminate|]. cbn. intros b Hb. injection Hb as <-. auto. Qed.
Lemma jsafe_fail m A (Q : A -> Prop) e : jsafe m Q (@fail tb A e).
Proof. intros s Hs. split; discriminate. Qed.
Lemma jsafe_failw m A (Q : A -> Prop) e : jsafe m Q (@failw tb A e).
Proof. apply jsafe_fail. Qed.
Lemma jsafe_oof m A (Q : A -> Prop) : jsafe m Q (@oof tb A).
Proof. intros s Hs. split; discriminate. Qed.
Lemma jsafe_get m A (g : pst tb -> A) : jsafe m any (get tb g).
Proof. intros s Hs. split; [discriminate|]. cbn. intros a _. split; [exact I|exact Hs]. Qed.
Lemma jsafe_mlift m A (x : outcome gerr A) : x <> Pan -> jsafe m any (mlift tb x).
Proof. intros Hx s Hs. split; [intro X; contradiction|]. cbn. intros a _. split; [exact I|exact Hs]. Qed.
Lemma jsafe_modify m g : (forall s, J m s -> J m (g s)) -> jsafe m any (modify tb g).
Proof. intros Hg s Hs. split; [discriminate|]. intros a _. split; [exact I|apply Hg, Hs]. Qed.
Lemma jsafe_nodes m g : jsafe m any (modify tb (fun s => set_nodeTab tb (g s) s)).
Proof. apply jsafe_modify. intros s Hs. destruct m; exact Hs. Qed.
Lemma jsafe_perefs m x : jsafe m any (modify tb (set_hasPERefs tb x)).
Proof. apply jsafe_modify. intros s Hs. destruct m; exact Hs. Qed.
Lemma jsafe_lift m A (p : P A) : pnp p -> psuf p -> jsafe m any (lift tb p).
Proof.
  intros Hp Hq s Hs. specialize (Hp (inp s)). specialize (Hq (inp s)). unfold jsat, TreeSafeParse.ok_run, lift. destruct (p (inp s)) as [r l]. cbn [fst snd] in *.
  split; [congruence|]. intros a _. split; [exact I|apply J_suffix; auto].
Qed.
Lemma jsafe_liftt m A (p : P A) : m <> Con -> DtdSafe.psafe p -> psuf p -> jsafe m any (lift tb p).
Proof.
  intros Nm Hp Hq s Hs. assert (Ht : tame (inp s)) by (destruct Hs as (X & _); destruct m; [contradiction|..]; exact (DtdSafe.J_tame _ _ _ _ _ X)).
  specialize (Hp (inp s) Ht). specialize (Hq (inp s)). unfold jsat, TreeSafeParse.ok_run, lift. destruct (p (inp s)) as [r l]. cbn [fst snd] in *.
  split; [congruence|]. intros a _. split; [exact I|apply J_suffix; auto].
Qed.
Lemma J_event m s h r e : J m s -> standing h -> (has_dtd (hs s) -> has_dtd h) -> J m (add_event tb h (e, r) s).
Proof.
  intros (A1 & A2 & A3 & A4) Hh Hd. refine (conj _ (conj A2 (conj A3 _))).
  - destruct A1 as (B1 & _ & B3). exact (conj B1 (conj Hh B3)).
  - eapply stage_next; [exact A4|apply suffix_refl|reflexivity|exact Hd].
Qed.
Lemma never_unspec s v e : snd (tb_event f s v e) <> HUnspec.
Proof. unfold tb_event. destruct (tb_action f s v e (tb_heap s)) as [[[]| | |] ?]; discriminate. Qed.
Lemma jsat_acts m e s : J m s -> acts f (hs s) (the_view tb s) e -> jsat m any (emit_raw tb H e) s.
Proof.
  intros Hs [N K]. pose proof (never_unspec (hs s) (the_view tb s) e) as U. unfold jsat, emit_raw. change (h_event H) with (tb_event f).
  destruct (tb_event f (hs s) (the_view tb s) e) as [h r]. cbn [fst snd] in *.
  destruct r; [|congruence|split; discriminate|congruence]. split; [discriminate|]. intros a _. split; [exact I|].
  destruct (K eq_refl) as [K1 K2]. apply J_event; assumption.
Qed.
Definition harmless (e : event) : Prop := plain_event f e /\ (forall t x, e <> EProcessingInstruction t x).
Lemma jsafe_raw m e : harmless e -> jsafe m any (emit_raw tb H e).
Proof. intros [Pe Ne] s Hs. apply jsat_acts; [exact Hs|]. apply plain_acts; [eapply J_standing, Hs|exact Pe|right; exact Ne]. Qed.
Lemma jsafe_emit m e : harmless e -> jsafe m any (emit tb H e).
Proof. intros He. apply jsafe_wrap, jsafe_raw, He. Qed.
Lemma jsafe_emit_pi t x : jsafe Con any (emit tb H (EProcessingInstruction t x)).
Proof. apply jsafe_wrap. intros s Hs. apply jsat_acts; [exact Hs|]. apply plain_acts; [eapply J_standing, Hs|exact I|left; apply Hs]. Qed.
Lemma jsafe_declare e : declares e -> jsafe Sub any (emit tb H e).
Proof.
  intros De. apply jsafe_wrap. intros s Hs. apply jsat_acts; [exact Hs|]. pose proof Hs as (_ & _ & _ & _ & V & D). apply decl_acts; [eapply J_standing, Hs|exact D|exact V|exact De].
Qed.
Lemma jsafe_peek m : jsafe m any (mpeek E tb).
Proof. apply jsafe_lift; [apply pnp_fun|]. intros l; apply suffix_refl. Qed.
Lemma jsafe_peekn m n : jsafe m any (mpeekn E tb n).
Proof. apply jsafe_lift; [apply pnp_fun|]. intros l; apply suffix_refl. Qed.
Lemma jsafe_has m n : jsafe m any (mhas tb n).
Proof. apply jsafe_lift; [apply pnp_fun|]. intros l; apply suffix_refl. Qed.
Lemma jsafe_adv m n : jsafe m any (madvance E tb n).
Proof. apply jsafe_lift; [apply pnp_fun|]. intros l. apply suffix_advance; auto. Qed.
Lemma jsafe_consume m p : jsafe m any (mconsume tb p).
Proof. apply jsafe_lift; [apply pnp_consume|]. apply psuf_consume. Qed.
Lemma jsafe_skip m : jsafe m any (mskip tb).
Proof. apply jsafe_lift; [apply pnp_fun|]. intros l. apply suffix_dropW. Qed.
Lemma jsafe_name m : jsafe m any (lift tb (pwrap (parseName E))).
Proof. apply jsafe_lift; [apply pnp_wrap, pnp_scanName|apply psuf_wrap, psuf_name; auto]. Qed.
Lemma jsafe_blanks m t : jsafe m any (areBlanks E tb H t).
Proof. intros s Hs. split; [discriminate|]. intros a Ha. split; [exact I|exact Hs]. Qed.
Ltac quiet := split; [exact I|discriminate].
Ltac fsolve := first [ apply jsafe_peek | apply jsafe_peekn | apply jsafe_adv | apply jsafe_has | apply jsafe_consume | apply jsafe_skip
  | apply jsafe_failw | apply jsafe_fail | apply jsafe_oof | apply jsafe_get | apply jsafe_emit; quiet | apply jsafe_raw; quiet | apply jsafe_blanks | apply jsafe_emit_pi
  | apply jsafe_declare; exact I | apply jsafe_name | apply jsafe_perefs | apply jsafe_ret; exact I | assumption ].
Ltac fstep := first [ fsolve | match goal with
  | |- forall _, _ => intro
  | |- jsafe _ _ (bind _ (mdone _) _) => eapply jsafe_bind with (Q := any); [apply jsafe_get|]
  | |- jsafe _ _ (bind _ _ _) => eapply jsafe_bind; [first [fsolve | apply jsafe_wrap; fsolve]|]
  | |- jsafe _ _ (bind _ (if _ then _ else _) _) => eapply jsafe_bind with (Q := any)
  | |- jsafe _ _ (wrap _ _) => apply jsafe_wrap
  | |- jsafe _ _ (if ?b then _ else _) => destruct b
  | |- jsafe _ _ (let '(_, _) := ?x in _) => destruct x
  | |- jsafe _ _ (match ?x with _ => _ end) => destruct x
  | |- jsafe _ _ (let _ := _ in _) => cbv zeta
  end ].

Lemma jsafe_PI : jsafe Con any (parsePI E tb H).
Proof. unfold parsePI. eapply jsafe_bind; [apply jsafe_lift; [apply pnp_PI|apply psuf_pi; auto]|]. repeat fstep. Qed.
Lemma jsafe_comment m : jsafe m any (parseComment E tb H).
Proof. unfold parseComment. eapply jsafe_bind; [apply jsafe_lift; [apply pnp_comment|apply psuf_comment; auto]|]. repeat fstep. Qed.
Lemma jsafe_charData m b : jsafe m any (parseCharData E tb H b).
Proof. unfold parseCharData. eapply jsafe_bind; [apply jsafe_lift; [apply pnp_chardata|apply psuf_chardata; auto]|]. repeat fstep. Qed.
Lemma jsafe_CDSect m : jsafe m any (parseCDSect E tb H).
Proof. unfold parseCDSect. eapply jsafe_bind; [fsolve|]. intros ok _. destruct (negb ok); [fsolve|]. eapply jsafe_bind; [apply jsafe_wrap, jsafe_charData|]. repeat fstep. Qed.
Lemma jsafe_charRef m : jsafe m any (wrap tb (lift tb (parseCharRef E))).
Proof. apply jsafe_wrap, jsafe_lift; [apply pnp_charref|apply psuf_charref; auto]. Qed.

(* what reports nothing and does not panic *)
Lemma no_entities : forall h v n, standing h -> nobody n -> exists e, snd (h_getEntity H h v n) = Answer (Some (Real e)) false /\
  e_type e <> InternalPredefinedEntity /\ (e_type e = InternalGeneralEntity -> refs_ok E nobody (runes_of (e_content e))).
Proof. intros h v n _ []. Qed.
Lemma asked : forall h v n, standing h -> standing (fst (h_getEntity H h v n)) /\ snd (h_getEntity H h v n) <> AnswerPanic.
Proof. intros h v n Hh. change (h_getEntity H) with tb_getEntity. destruct (entity_query h v n Hh) as [A B]. rewrite A. auto. Qed.
Lemma bridge m A (Q : A -> Prop) (p : M tb A) s : J m s -> DtdSafe.sat E tb standing nobody (strict m) (fun a _ => Q a) p s -> framed p -> still tb p -> jsat m Q p s.
Proof.
  intros Hs (N & Js & Qs) Fr St. unfold jsat, TreeSafeParse.ok_run. destruct (p s) as [r s'] eqn:Er. cbn [fst snd] in *. split; [intro X; contradiction|].
  intros a ->. split; [apply Qs; reflexivity|]. destruct (Fr _ _ _ (J_standing _ _ Hs) Er) as (A1 & A2 & A3). destruct (St _ _ _ Er) as (B1 & _).
  destruct Hs as (C1 & C2 & C3 & C4). refine (conj Js (conj _ (conj _ _))).
  - destruct A3 as (y & Hy). rewrite Hy, app_length in C2. lia.
  - intros Ho. rewrite B1. eapply nsok_suffix; [apply C3, Ho|exact A3].
  - eapply stage_next; [exact C4|exact A3|exact A2|congruence].
Qed.
Lemma still_entities : still tb (parseEntityRef E tb H). Proof. apply still_entityRef. Qed.
Lemma jsafe_entityRef : jsafe Con (fun e => e_type e = InternalPredefinedEntity) (wrap tb (parseEntityRef E tb H)).
Proof.
  apply jsafe_wrap. intros s Hs.
  assert (B : jsat Con (DtdSafe.okent E nobody) (parseEntityRef E tb H) s).
  { apply bridge; [exact Hs| |apply framed_entityRef|apply still_entities]. apply DtdSafe.safe_entityRef; [exact OK|exact no_entities|exact asked|apply Hs]. }
  destruct B as [B1 B2]. split; [exact B1|]. intros e He. destruct (B2 e He) as [_ Js]. split; [|exact Js].
  destruct (parseEntityRef E tb H s) as [r s'] eqn:Er. cbn [fst snd] in *. subst r.
  apply (LooseSubset.entityRef_tells E OK NC OV) in Er as (n & z & (Hi & _) & X & Z & P). destruct (predefined (utf8 n)) eqn:Hp; [apply P|].
  exfalso. destruct Hs as ((Rf & _) & _). destruct X as [X _]. destruct n as [|c n]; [destruct X|]. destruct X as [X1 X2].
  destruct (Rf [] c n (z ++ [59] ++ inp s')) as [Pn|[]].
  - rewrite Hi. cbn. rewrite <- !app_assoc. reflexivity.
  - unfold nm_start. unfold name_start in X1. destruct (isLetter E c); [reflexivity|]. cbn [orb] in *. lia.
  - eapply Forall_impl; [|exact X2]. cbn. intros x Hx. unfold nm_part. unfold name_part in Hx. destruct (isLetter E x); [reflexivity|]. destruct (isDigit E x); [reflexivity|]. cbn [orb] in *. lia.
  - assert (P0 : nm_part E 59 = false /\ nm_part E 0 = false) by (unfold nm_part; rewrite !(ok_letter E OK), !(ok_digit E OK) by lia; split; reflexivity).
    destruct Z as [->| ->]; apply P0.
  - rewrite (In_predef_utf8 _ Pn) in Hp. exact (predefined_In _ Pn Hp).
Qed.

(* start tags *)
Lemma jsat_get m A B (Q : B -> Prop) (g : pst tb -> A) (k : A -> M tb B) s : jsat m Q (k (g s)) s -> jsat m Q (bind tb (get tb g) k) s.
Proof. intro X. exact X. Qed.
Lemma jsat_start l p u ns a s : J Con s -> (o = true -> ~ In None ns) -> (exists a', mirrors_atts a a') ->
  (forall x y w, In (AAttr x y w) a -> (List.length w < f)%nat) -> jsat Con any (emit tb H (EStartElement l p u ns a)) s.
Proof.
  intros Hs Hn Hm Hl. apply jsat_wrap.
  assert (D : In None ns \/ ~ In None ns).
  { clear. induction ns as [|[x|] ns IH]; [right; intros []| |left; left; reflexivity].
    destruct IH as [IH|IH]; [left; right; exact IH|right]. intros [X|X]; [discriminate|exact (IH X)]. }
  destruct D as [D|D]; [|apply jsat_acts; [exact Hs|apply plain_acts; [eapply J_standing, Hs|refine (conj D (conj Hm Hl))|right; discriminate]]].
  pose proof (nil_panics f (hs s) (the_view tb s) l p u ns a (proj1 (J_standing _ _ Hs)) D) as X.
  unfold jsat, TreeSafeParse.ok_run, emit_raw. change (h_event H) with (tb_event f). destruct (tb_event f (hs s) (the_view tb s) (EStartElement l p u ns a)) as [h r]. cbn [snd] in X. subst r.
  cbn [fst snd]. split; [|discriminate]. intros _. split; [destruct o; [exfalso; apply Hn; auto|reflexivity]|].
  exists l, p, u, ns, a, (tr s). split; [reflexivity|exact D].
Qed.
Lemma attrLoop_facts n local s attrs k s' : J Con s -> attrLoop E tb H n local [] 0 s = (Ret (attrs, k), s') ->
  J Con s' /\ (exists a', mirrors_atts attrs a') /\ (forall x y w, In (AAttr x y w) attrs -> (List.length w < f)%nat) /\
  (o = true -> (k <= List.length (nsTab s'))%nat).
Proof.
  intros Hs Er. destruct (framed_attrLoop n local [] 0%nat _ _ _ (J_standing _ _ Hs) Er) as (F1 & F2 & F3).
  pose proof (DtdSafe.safe_attrLoop E OK tb H standing nobody no_entities asked n local [] 0%nat s (proj1 Hs)) as (_ & Js & _).
  rewrite Er in Js. cbn [snd] in Js.
  apply (attrLoop_tells E OK NC OV tb H (fun el a => match lookupSpecial (attsSpecial s) (special_key el a) with Some t => negb (t =? AttrInvalid) | None => false end)
    (fun nm => map (fun x : str * str * str => let '(l, p, v) := x in ADefault l p v) (defaultsOf nm (attsDefault s))) (attsSpecial s) (attsDefault s)) in Er;
    [|reflexivity|intros; apply Permutation_refl|split; reflexivity].
  destruct Er as (t & a & d & e & L & -> & -> & (Hi & _) & Ce & _). cbn [app Nat.add]. destruct Hs as ((R1 & R2 & R3) & A2 & A3 & A4).
  rewrite <- app_assoc in Hi. assert (Rf : refs_ok E nobody (t ++ e ++ inp s')) by (rewrite <- Hi; exact R1).
  destruct (batts_facts E OK NC _ _ _ _ _ _ _ _ L _ Rf) as [Fm Fl].
  assert (Nn : o = true -> List.length (rev (nsTab s')) = (List.length (rev (nsTab s)) + List.length d)%nat /\ nsok E (rev (nsTab s')) (e ++ inp s')).
  { intros Ho. apply (batts_nsok E OK NC _ _ _ _ _ _ _ _ L _ Rf). rewrite <- Hi. apply A3, Ho. }
  split; [|split; [exact Fm|split]].
  - refine (conj Js (conj _ (conj _ _))).
    + rewrite Hi, !app_length in A2. lia.
    + intros Ho. destruct (Nn Ho) as [_ N]. eapply nsok_suffix; [exact N|apply suffix_app].
    + cbn [stage] in *. congruence.
  - intros x y w X. specialize (Fl _ _ _ X). rewrite Hi, !app_length in A2. lia.
  - intros Ho. destruct (Nn Ho) as [N _]. rewrite !rev_length in N. lia.
Qed.
Lemma more_atts (ds : list (str * str * str)) : forall a, (exists a', mirrors_atts a a') -> exists a', mirrors_atts (a ++ map (fun x : str * str * str => let '(l, p, v) := x in ADefault l p v) ds) a'.
Proof.
  assert (X : mirrors_atts (map (fun x : str * str * str => let '(l, p, v) := x in ADefault l p v) ds) []).
  { induction ds as [|[[l p] v] ds IH]; cbn [map]; constructor; exact IH. }
  intros a (a' & M). exists a'. induction M as [|l p rs a b V M IH|l p raw a b M IH]; cbn [app]; [exact X|constructor; assumption|constructor; assumption].
Qed.
Lemma no_more (ds : list (str * str * str)) x y w a : In (AAttr x y w) (a ++ map (fun x : str * str * str => let '(l, p, v) := x in ADefault l p v) ds) -> In (AAttr x y w) a.
Proof. intro X. apply in_app_or in X as [X|X]; [exact X|]. apply in_map_iff in X as ([[l p] v] & X & _). discriminate. Qed.
Lemma jsafe_startTag n : jsafe Con any (parseStartTag E tb H n).
Proof.
  unfold parseStartTag. eapply jsafe_bind; [fsolve|]. intros c _. destruct (negb _); [fsolve|].
  eapply jsafe_bind; [fsolve|]. intros _ _.
  eapply jsafe_bind; [apply jsafe_lift; [apply pnp_else, pnp_qname|apply psuf_else, psuf_qname; auto]|]. intros [l p] _.
  destruct l as [|z l]; [fsolve|]. intros s Hs. eapply jsat_bind with (Q := any).
  { destruct (DtdSafe.safe_attrLoop E OK tb H standing nobody no_entities asked n (z :: l) [] 0%nat s (proj1 Hs)) as (N & _).
    unfold jsat, TreeSafeParse.ok_run. destruct (attrLoop E tb H n (z :: l) [] 0 s) as [r s'] eqn:Er. cbn [fst snd] in *. split; [congruence|].
    intros [attrs k] ->. split; [exact I|]. eapply attrLoop_facts; eassumption. }
  intros [attrs k] s' Er _ _. destruct (attrLoop_facts _ _ _ _ _ _ Hs Er) as (Js & Fm & Fl & Fk). clear Er.
  apply jsat_get. cbv zeta. apply jsat_get. destruct (_ && _); [apply jsafe_failw; exact Js|].
  rewrite (reported_is E NC OV). eapply jsat_bind; [apply jsat_start|].
  - exact Js.
  - intros Ho. eapply reported_full; try eassumption. rewrite rev_length. apply Fk, Ho.
  - apply more_atts, Fm.
  - intros x y w X. apply no_more in X. exact (Fl _ _ _ X).
  - intros [] s2 _ _ J2. apply jsafe_nodes, J2.
Qed.
Lemma jsat_endTag s : J Con s -> nodeTab s <> [] -> jsat Con any (parseEndTag E tb H) s.
Proof.
  intros Hs Hn. unfold parseEndTag.
  eapply jsat_bind; [apply jsafe_consume; exact Hs|]. intros empty s1 E1 _ J1.
  assert (N1 : nodeTab s1 = nodeTab s). { unfold mconsume, lift in E1. destruct (pconsume _ _). injection E1 as _ <-. reflexivity. }
  apply jsat_get. rewrite N1. destruct (nodeTab s) as [|[[l p] u] rest]; [congruence|].
  clear E1 N1. revert s1 J1. match goal with |- forall s1, J Con s1 -> jsat Con any ?m s1 => change (jsafe Con any m) end.
  eapply jsafe_bind with (Q := any).
  - repeat fstep.
  - intros _ _. eapply jsafe_bind; [fsolve|]. intros _ _. apply jsafe_nodes.
Qed.
Lemma jsafe_element n content : eff TForest content -> jsafe Con any content -> jsafe Con any (parseElement E tb H n content).
Proof.
  intros Heff Hc s Hs. unfold parseElement.
  eapply jsat_bind; [apply jsafe_wrap; [apply jsafe_startTag|exact Hs]|]. intros [] s1 R1 _ J1.
  assert (N1 : nodeTab s1 <> []).
  { destruct (starts_wrap _ _ (starts_startTag E tb H n) s) as (evs & _ & _ & [(_ & _ & X)|(X & _)]); rewrite R1 in X; cbn [fst snd] in X.
    - destruct X as (l & p & u & ns & atts & r & _ & X). rewrite X. discriminate.
    - discriminate. }
  eapply jsat_bind; [apply jsafe_has; exact J1|]. intros empty s2 E2 _ J2.
  assert (N2 : nodeTab s2 <> []). { injection E2 as _ <-. exact N1. }
  eapply jsat_bind with (Q := any).
  - destruct empty; [apply jsafe_ret; [exact I|exact J2]|apply jsafe_wrap; [exact Hc|exact J2]].
  - intros [] s3 E3 _ J3. apply jsat_wrap, jsat_endTag; [exact J3|].
    destruct empty; [injection E3 as <-; exact N2|].
    destruct (eff_wrap _ TForest _ content Heff s2) as (evs & _ & _ & _ & F). rewrite E3 in F. destruct (F eq_refl) as (F1 & _).
    cbn [snd] in F1. rewrite F1. exact N2.
Qed.
Lemma jsafe_reference content : jsafe Con any (parseReference E tb H content).
Proof.
  unfold parseReference. eapply jsafe_bind; [fsolve|]. intros c _. destruct (negb _); [fsolve|].
  eapply jsafe_bind; [fsolve|]. intros c2 _. destruct (_ =? _).
  - eapply jsafe_bind; [apply jsafe_charRef|]. intros v _. fsolve.
  - eapply jsafe_bind; [apply jsafe_entityRef|]. intros e He. cbv beta in He. rewrite He. cbn [Z.eqb Pos.eqb InternalPredefinedEntity]. rewrite ?orb_true_r. repeat fstep.
Qed.
Lemma jsafe_content n : jsafe Con any (parseContent E tb H n).
Proof.
  induction n as [|n IH]; cbn [parseContent]; [fsolve|].
  eapply jsafe_bind with (Q := any); [apply jsafe_get|]. intros d _. destruct d; [fsolve|].
  assert (X : forall m : M tb unit, jsafe Con any m -> jsafe Con any (bind tb m (fun _ => parseContent E tb H n))).
  { intros m Hm. eapply jsafe_bind; [exact Hm|]. intros _ _. exact IH. }
  intros s Hs. unfold jsat. cbv zeta. repeat match goal with |- context [if ?b then _ else _] => destruct b end.
  - apply (jsafe_ret Con unit any); [exact I|exact Hs].
  - apply X; [apply jsafe_wrap, jsafe_PI|exact Hs].
  - apply X; [apply jsafe_wrap, jsafe_CDSect|exact Hs].
  - apply X; [apply jsafe_wrap, jsafe_comment|exact Hs].
  - apply X; [apply jsafe_wrap, jsafe_element; [apply eff_content|exact IH]|exact Hs].
  - apply X; [apply jsafe_wrap, jsafe_reference|exact Hs].
  - apply X; [apply jsafe_charData|exact Hs].
Qed.
Lemma jsafe_misc n : jsafe Con any (parseMisc E tb H n).
Proof.
  induction n as [|n IH]; cbn [parseMisc]; [fsolve|].
  eapply jsafe_bind with (Q := any); [apply jsafe_get|]. intros d _. destruct d; [fsolve|].
  assert (X : forall A (m : M tb A), jsafe Con any m -> jsafe Con any (bind tb m (fun _ => parseMisc E tb H n))).
  { intros A m Hm. eapply jsafe_bind; [exact Hm|]. intros _ _. exact IH. }
  intros s Hs. unfold jsat. cbv zeta. repeat match goal with |- context [if ?b then _ else _] => destruct b end.
  - apply X; [apply jsafe_wrap, jsafe_PI|exact Hs].
  - apply X; [apply jsafe_wrap, jsafe_comment|exact Hs].
  - apply X; [apply jsafe_skip|exact Hs].
  - apply (jsafe_ret Con unit any); [exact I|exact Hs].
Qed.

(* ---- declarations ---- *)
Lemma J_heap m s h : J m s -> standing h -> (has_dtd (hs s) -> has_dtd h) -> J m (set_hs tb h s).
Proof.
  intros (A1 & A2 & A3 & A4) Hh Hd. refine (conj _ (conj A2 (conj A3 _))).
  - destruct A1 as (B1 & _ & B3). exact (conj B1 (conj Hh B3)).
  - eapply stage_next; [exact A4|apply suffix_refl|reflexivity|exact Hd].
Qed.
Lemma jsafe_queryE m n : jsafe m any (queryEntity tb H n).
Proof.
  intros s Hs. unfold jsat, queryEntity. change (h_getEntity H) with tb_getEntity. destruct (entity_query (hs s) (the_view tb s) n (J_standing _ _ Hs)) as [A B].
  destruct (tb_getEntity (hs s) (the_view tb s) n) as [h r]. cbn [fst snd] in *. subst h. destruct r; [|contradiction]. split; [discriminate|]. intros a _. split; [exact I|].
  apply J_heap; [exact Hs|eapply J_standing, Hs|auto].
Qed.
Lemma jsafe_queryP m n : jsafe m any (queryPEntity tb H n).
Proof.
  intros s Hs. unfold jsat, queryPEntity. change (h_getPEntity H) with tb_getPEntity. destruct (parameter_query (hs s) (the_view tb s) n (J_standing _ _ Hs)) as [A B].
  destruct (tb_getPEntity (hs s) (the_view tb s) n) as [h r]. cbn [fst snd] in *. subst h. destruct r; [|contradiction]. split; [discriminate|]. intros a _. split; [exact I|].
  apply J_heap; [exact Hs|eapply J_standing, Hs|auto].
Qed.
Lemma jsafe_PERef m : jsafe m any (parsePEReference E tb H).
Proof.
  unfold parsePEReference. eapply jsafe_bind; [fsolve|]. intros c _. destruct (negb _); [fsolve|]. eapply jsafe_bind; [fsolve|]. intros _ _.
  eapply jsafe_bind; [fsolve|]. intros name _. eapply jsafe_bind; [fsolve|]. intros c2 _. destruct (negb _); [fsolve|]. eapply jsafe_bind; [fsolve|]. intros _ _.
  eapply jsafe_bind; [apply jsafe_queryP|]. intros a _. cbv zeta. eapply jsafe_bind with (Q := any); [fsolve|]. intros sa _. eapply jsafe_bind with (Q := any); [fsolve|]. intros pe _.
  destruct (if snd a then None else fst a); [fsolve|]. destruct (_ || _); fsolve.
Qed.
Lemma jsafe_unquoted n : jsafe Sub any (unquotedEntity E tb H n).
Proof. unfold unquotedEntity. repeat fstep. Qed.
Lemma jsafe_entityDecl : jsafe Sub any (parseEntityDecl E tb H).
Proof.
  unfold parseEntityDecl. eapply jsafe_bind; [fsolve|]. intros ok _. destruct (negb ok); [fsolve|].
  eapply jsafe_bind; [fsolve|]. intros b _. destruct (negb b); [fsolve|]. eapply jsafe_bind; [fsolve|]. intros c _.
  eapply jsafe_bind with (Q := any); [repeat fstep|]. intros isP _.
  eapply jsafe_bind; [fsolve|]. intros name _. destruct (mem_byte _ _); [fsolve|].
  eapply jsafe_bind; [fsolve|]. intros b3 _. destruct (negb b3); [fsolve|]. eapply jsafe_bind; [fsolve|]. intros c2 _.
  eapply jsafe_bind with (Q := any).
  { destruct (_ || _).
    - eapply jsafe_bind; [apply jsafe_liftt; [discriminate|apply DtdSafe.psafe_try, DtdSafe.psafe_entityValue; auto|apply psuf_try, psuf_entityvalue; auto]|]. intros [e|[lit v]] _; repeat fstep.
    - eapply jsafe_bind with (Q := any); [destruct isP; [fsolve|apply jsafe_unquoted]|]. intros; fsolve. }
  intros literal _. eapply jsafe_bind; [fsolve|]. intros _ _. eapply jsafe_bind; [fsolve|]. intros c3 _. destruct (negb _); [fsolve|].
  eapply jsafe_bind; [fsolve|]. intros _ _. eapply jsafe_bind with (Q := any); [destruct isP; [apply jsafe_queryP|apply jsafe_queryE]|].
  intros a _. destruct (fst a) as [e|]; [|fsolve]. apply jsafe_modify. intros s Hs. change (h_setOrig H) with tb_setOrig.
  destruct (orig_standing (hs s) e literal (J_standing _ _ Hs)) as [A B]. apply J_heap; assumption.
Qed.
Lemma still_default n : still tb (parseDefaultDecl E tb H n).
Proof.
  unfold parseDefaultDecl, parseAttributeValueInternal, mpeek, madvance, mskip, mconsume.
  repeat first [ match goal with |- forall _, _ => intro end | apply still_bind | apply still_wrap | apply still_lift | apply still_ret | apply still_failw | apply still_value | apply still_mlift | progress cbv zeta | match goal with |- still _ (let '(_, _) := ?x in _) => destruct x end
    | match goal with |- still _ (if ?b then _ else _) => destruct b end ].
Qed.
Lemma jsafe_addDefault e a v : plain v -> (List.length v < f)%nat -> jsafe Sub any (addAttributeDefault tb H e a v).
Proof.
  intros (rs & V & ->) L. unfold addAttributeDefault. eapply jsafe_bind with (Q := any); [fsolve|]. intros sp _. destruct (lookupSpecial _ _); [fsolve|].
  destruct (prefix_local a) as [p l]. intros s Hs. unfold jsat. change (h_createAttr H) with (tb_createAttr f).
  destruct (default_standing f (hs s) l p rs (J_standing _ _ Hs) V L) as (B1 & B2 & B3).
  destruct (tb_createAttr f (hs s) l p (utf8 (amp_escaped rs))) as [h r]. cbn [fst snd] in *.
  pose proof (J_heap _ _ _ Hs B2 B3) as Jh. destruct r; [| |congruence|split; discriminate]; (split; [discriminate|]; intros x _; split; [exact I|exact Jh]).
Qed.
Lemma jsafe_attlist n : forall elem, jsafe Sub any (attlistLoop E tb H n elem).
Proof.
  induction n as [|n IH]; intros elem; cbn [attlistLoop]; [fsolve|].
  eapply jsafe_bind; [fsolve|]. intros c _. destruct (c =? 62); [fsolve|].
  eapply jsafe_bind; [apply jsafe_lift; [apply pnp_else, pnp_scanName|apply psuf_else, psuf_name; auto]|]. intros att _.
  eapply jsafe_bind; [fsolve|]. intros c1 _. destruct (negb _); [fsolve|]. eapply jsafe_bind; [fsolve|]. intros _ _.
  eapply jsafe_bind; [apply jsafe_lift; [apply pnp_wrap, DtdSafe.pnp_attrType|apply psuf_wrap, psuf_attrtype; auto]|]. intros [typ enum] _.
  intros s Hs. eapply jsat_bind; [apply jsafe_peek; exact Hs|]. intros c2 s1 Ec _ _.
  apply mpeek_form in Ec as [-> ->].
  destruct (isBlankCh (peek E (inp s))) eqn:Hb; cbn [negb]; [|apply jsafe_failw; exact Hs].
  eapply jsat_bind; [apply jsafe_skip; exact Hs|]. intros b2 s2 Es _ J2.
  assert (Af : DtdSafe.after_blank (inp s2)).
  { unfold mskip, lift, skipBlanks in Es. match type of Es with _ = (_, ?y) => injection Es as _ <- end. cbn [inp set_inp].
    apply (DtdSafe.skip_after E); [exact OK|exact Hb|]. eapply DtdSafe.J_tame, Hs. }
  eapply jsat_bind with (Q := fun dv => plain (snd dv) /\ (List.length (snd dv) < f)%nat /\ attrNormalizeSpace (snd dv) <> Pan).
  { apply jsat_wrap. assert (B : jsat Sub (fun dv => attrNormalizeSpace (snd dv) <> Pan) (parseDefaultDecl E tb H n) s2).
    { apply bridge; [exact J2| |apply framed_default|apply still_default]. apply DtdSafe.sat_default; [exact OK|exact no_entities|exact asked|apply J2|exact Af]. }
    destruct B as [B1 B2]. split; [exact B1|]. intros [d v] He. destruct (B2 _ He) as [Bn Js]. split; [|exact Js].
    destruct (parseDefaultDecl E tb H n s2) as [r s'] eqn:Er. cbn [fst snd] in *. subst r.
    apply (LooseSubset.default_tells E OK NC OV) in Er as (t & (Hi & _) & D). destruct J2 as ((Rf & _) & Lf & _).
    rewrite Hi in Rf. destruct (default_plain E OK NC _ (fun _ _ => false) _ _ _ _ D Rf) as [P L]. split; [exact P|]. split; [|exact Bn].
    rewrite Hi, app_length in Lf. lia. }
  intros [def dv0] s3 _ (P & L & N) J3. cbn [snd] in P, L, N. revert s3 J3.
  match goal with |- forall s3, J Sub s3 -> jsat _ _ ?m s3 => change (jsafe Sub any m) end.
  eapply jsafe_bind with (Q := fun dv => plain dv /\ (List.length dv < f)%nat).
  { destruct (_ && _); [|apply jsafe_ret; auto]. intros s3 J3. split; [intro X; contradiction|]. cbn. intros w Hw. split; [|exact J3].
    apply LooseSubset.normal_tokens in Hw. subst w. split; [apply plain_tokens, P|]. pose proof (spaced_short dv0). lia. }
  intros dv [Pd Ld].
  eapply jsafe_bind; [fsolve|]. intros c3 _. eapply jsafe_bind with (Q := any); [repeat fstep|]. intros _ _.
  eapply jsafe_bind; [fsolve|]. intros _ _. eapply jsafe_bind with (Q := any); [destruct (_ && _); [apply jsafe_addDefault; assumption|fsolve]|]. intros _ _.
  eapply jsafe_bind with (Q := any).
  { apply jsafe_modify. intros s0 ((A1 & A2 & A3) & A4). refine (conj (conj A1 (conj A2 _)) A4). destruct A3 as [A3|[A3 _]]; [left; exact A3|discriminate]. }
  intros _ _. eapply jsafe_bind; [fsolve|]. intros c4 _. destruct (_ =? _); [fsolve|apply IH].
Qed.
Lemma jsafe_attListDecl n : jsafe Sub any (parseAttributeListDecl E tb H n).
Proof.
  unfold parseAttributeListDecl. eapply jsafe_bind; [fsolve|]. intros ok _. destruct (negb ok); [fsolve|].
  eapply jsafe_bind; [fsolve|]. intros c _. destruct (negb _); [fsolve|]. eapply jsafe_bind; [fsolve|]. intros _ _.
  eapply jsafe_bind; [fsolve|]. intros elem _. eapply jsafe_bind; [fsolve|]. intros _ _. apply jsafe_attlist.
Qed.
Lemma jsafe_elementDecl n : jsafe Sub any (parseElementDecl E tb H n).
Proof.
  unfold parseElementDecl. eapply jsafe_bind; [apply jsafe_liftt; [discriminate|apply DtdSafe.psafe_elementDecl; auto|apply psuf_elementdecl; auto]|].
  intros [[nm t] c] _. fsolve.
Qed.
Lemma jsafe_markup n : jsafe Sub any (parseMarkupDecl E tb H n).
Proof.
  intros s Hs. unfold jsat, parseMarkupDecl. cbv zeta.
  assert (X : forall m : M tb unit, jsafe Sub any m -> jsafe Sub any (bind tb m (fun _ => wrap tb (parsePEReference E tb H)))).
  { intros m Hm. eapply jsafe_bind; [exact Hm|]. intros _ _. apply jsafe_wrap, jsafe_PERef. }
  assert (R : jsafe Sub any (ret tb tt)) by (apply jsafe_ret; exact I).
  destruct (peek E (inp s) =? 60) eqn:E60; [|apply (jsafe_wrap Sub _ any _ (jsafe_PERef Sub)); auto].
  destruct (peekn E 2 (inp s) =? 33).
  - apply X; auto. destruct (_ =? 69).
    + destruct (_ =? 76); [apply jsafe_wrap, jsafe_elementDecl|]. destruct (_ =? 78); [apply jsafe_wrap, jsafe_entityDecl|exact R].
    + destruct (_ =? 65); [apply jsafe_wrap, jsafe_attListDecl|]. destruct (_ =? 45); [apply jsafe_wrap, jsafe_comment|exact R].
  - destruct (peekn E 2 (inp s) =? 63) eqn:E63; [|apply (jsafe_wrap Sub _ any _ (jsafe_PERef Sub)); auto]. exfalso.
    destruct Hs as (_ & _ & _ & Pf & _). apply Z.eqb_eq in E60, E63.
    destruct (inp s) as [|a [|b l]]; cbn in E60, E63.
    + destruct (ok_eofr E OK) as [e|e]; rewrite e in E60; discriminate.
    + destruct (ok_eofr E OK) as [e|e]; rewrite e in E63; discriminate.
    + subst a b. apply (Pf [] l). reflexivity.
Qed.
Lemma jsafe_subset n : jsafe Sub any (subsetLoop E tb H n).
Proof.
  induction n as [|n IH]; cbn [subsetLoop]; [fsolve|].
  eapply jsafe_bind with (Q := any); [apply jsafe_get|]. intros d _. eapply jsafe_bind; [fsolve|]. intros c _. destruct (_ || _); [fsolve|].
  eapply jsafe_bind; [fsolve|]. intros _ _. eapply jsafe_bind; [apply jsafe_wrap, jsafe_markup|]. intros _ _.
  eapply jsafe_bind; [apply jsafe_wrap, jsafe_PERef|]. intros _ _. apply IH.
Qed.
Lemma jsafe_internal n : jsafe Sub any (parseInternalSubset E tb H n).
Proof.
  unfold parseInternalSubset. eapply jsafe_bind; [fsolve|]. intros c _. eapply jsafe_bind with (Q := any).
  - destruct (negb _); [fsolve|]. eapply jsafe_bind; [fsolve|]. intros _ _. eapply jsafe_bind; [apply jsafe_subset|]. intros _ _. repeat fstep.
  - repeat fstep.
Qed.
Lemma sub_internal s n x y : J Head s -> ok_run (fun (_ : unit) s' => J Tail s') (emit tb H (EInternalSubset n x y) s).
Proof.
  intros Hs. apply ok_wrap. destruct (internal_acts f (hs s) (the_view tb s) n x y (J_standing _ _ Hs)) as [N K].
  pose proof (never_unspec (hs s) (the_view tb s) (EInternalSubset n x y)) as U. unfold emit_raw. change (h_event H) with (tb_event f).
  destruct (tb_event f (hs s) (the_view tb s) (EInternalSubset n x y)) as [h r]. cbn [fst snd] in *.
  destruct r; [|congruence|split; discriminate|congruence]. split; [discriminate|]. intros a _. destruct (K eq_refl) as [K1 K2].
  destruct Hs as (A1 & A2 & A3 & A4 & A5). refine (conj _ (conj A2 (conj A3 (conj A4 (conj A5 K2))))). destruct A1 as (B1 & _ & B3). exact (conj B1 (conj K1 B3)).
Qed.
Lemma sub_docType s : J Head s -> ok_run (fun (_ : unit) s' => J Tail s') (parseDocTypeDecl E tb H s).
Proof.
  intros Hs. unfold parseDocTypeDecl.
  eapply ok_next; [apply jsafe_consume; exact Hs|]. clear s Hs. intros ok s [_ Hs]. destruct (negb ok); [split; discriminate|].
  eapply ok_next; [apply jsafe_skip; exact Hs|]. clear s Hs. intros b s [_ Hs].
  eapply ok_next; [apply (jsafe_lift Head); [apply pnp_else, pnp_scanName|apply psuf_else, psuf_name; auto|exact Hs]|]. clear s Hs. intros name s [_ Hs].
  eapply ok_next; [apply (jsafe_modify Head (set_intSubName tb name)); [intros s0 H0; exact H0|exact Hs]|]. clear s Hs. intros u s [_ Hs].
  eapply ok_next; [apply jsafe_skip; exact Hs|]. clear s Hs. intros b' s [_ Hs].
  eapply ok_next; [apply sub_internal; exact Hs|]. clear s Hs. intros u' s Hs.
  match goal with |- ok_run _ (?p s) => assert (X : jsafe Tail any p) by (repeat fstep); destruct (X s Hs) as [X1 X2] end.
  split; [exact X1|]. intros a Ha. exact (proj2 (X2 a Ha)).
Qed.
Lemma con_DTD n s : J Con s -> tame (inp s) -> early_pis (inp s) -> ok_run (fun (_ : unit) s' => J Con s') (parseDTD E tb H n s).
Proof.
  intros Hs Ht Hp. unfold parseDTD.
  eapply ok_next with (K := fun _ s => J Head s).
  { split; [discriminate|]. intros a _. destruct Hs as ((A1 & A2 & _) & B1 & B2 & _). refine (conj (conj A1 (conj A2 (or_introl Ht))) (conj B1 (conj B2 (conj Hp eq_refl)))). }
  clear s Hs Ht Hp. intros u s Hs. eapply ok_next; [apply ok_wrap, sub_docType; exact Hs|]. clear s Hs u. intros u s Hs.
  eapply ok_next with (K := fun b s => J Tail s /\ b = has_prefix (s_ "[") (inp s)).
  { unfold mhas, lift, phas. apply ok_any; [discriminate|]. cbn [fst snd]. intros a Ha. rewrite set_inp_self. split; [exact Hs|congruence]. }
  clear s Hs u. intros sub s [Hs Hb].
  eapply ok_next with (K := fun _ s => J Gap s).
  { assert (G0 : forall s0 m, m = Tail \/ m = Sub -> J m s0 -> J Gap s0) by (intros s0 m [->| ->] (A1 & A2 & A3 & _); exact (conj A1 (conj A2 (conj A3 I)))).
    destruct sub; [|apply ok_any; [discriminate|]; intros a _; eapply G0; [left; reflexivity|exact Hs]].
    assert (Js : J Sub s).
    { destruct Hs as (A1 & A2 & A3 & A4 & A5 & A6). refine (conj A1 (conj A2 (conj A3 (conj _ (conj A5 A6))))). symmetry in Hb.
      apply has_prefix_true in Hb as (r & Hr). pose proof (A4 [] r Hr) as Pr. rewrite Hr. intros a b X. destruct a as [|c a]; [discriminate X|]. injection X as _ X. exact (Pr a b X). }
    destruct (jsafe_wrap Sub _ any _ (jsafe_internal n) s Js) as [X1 X2]. split; [exact X1|]. intros a Ha. eapply G0; [right; reflexivity|exact (proj2 (X2 a Ha))]. }
  clear s Hs Hb. intros u s Hs. eapply ok_next with (K := fun _ s => J Gap s).
  { split; [discriminate|]. intros a _. exact Hs. }
  clear s Hs u. intros u s Hs. eapply ok_next; [apply (jsafe_get Gap); exact Hs|]. clear s Hs u. intros name s [_ Hs].
  eapply ok_next; [apply ok_wrap, jsat_acts; [exact Hs|apply external_acts; eapply J_standing, Hs]|]. clear s Hs. intros u s [_ Hs].
  eapply ok_next with (K := fun _ s => J Con s).
  { split; [discriminate|]. intros a _. destruct Hs as (A1 & A2 & A3 & _). refine (conj _ (conj A2 (conj A3 eq_refl))).
    exact (DtdSafe.J_weak E tb standing nobody false s A1). }
  clear s Hs u. intros u s Hs. eapply ok_next with (K := fun _ s => J Con s).
  { split; [discriminate|]. intros a _. destruct Hs as ((A1 & A2 & A3) & A4). refine (conj (conj A1 (conj A2 _)) A4).
    destruct A3 as [A3|[A3 A5]]; [left; exact A3|right; split; [exact A3|]]. cbn. rewrite A5. reflexivity. }
  clear s Hs u. intros u s Hs. destruct (jsafe_wrap Con _ any _ (jsafe_misc n) s Hs) as [X1 X2]. split; [exact X1|intros a Ha; exact (proj2 (X2 a Ha))].
Qed.

(* ---- the document ---- *)
Variable bytes : str.
Hypothesis BY : forall c rest, suffix rest bytes -> fitting E f (decode E c rest) /\ (o = true -> one_default (decode E c rest) /\ prefixes_named E (decode E c rest)).
Hypothesis PC : forall a r, bytes = a ++ s_ "<?xml" ++ r -> late_percent bytes.

(* before the start of the document *)
Definition B_ (s : pst tb) : Prop := attsSpecial s = [] /\ inSubset s = 0 /\ hs s = tb_init /\ nsTab s = [] /\ suffix (inp s) bytes.
Definition may_declare (l : list Z) : Prop := no_doctype l \/ tame l /\ forall a b, l = a ++ s_ "<!DOCTYPE" ++ b -> early_pis b.
Definition D' (s : pst tb) : Prop := J Con s /\ may_declare (inp s).
Lemma may_suffix (l l' : list Z) : suffix l' l -> may_declare l -> may_declare l'.
Proof.
  intros Sx [A|[A B]]; [left; eapply doctype_suffix; eassumption|]. right. split; [eapply DtdSafe.tame_suffix; eassumption|].
  destruct Sx as (p & ->). intros a b ->. apply (B (p ++ a) b). rewrite <- app_assoc. reflexivity.
Qed.

Theorem Parse_into_tree n : ok_run (fun (_ : unit) s => standing (hs s)) (Parse E tb H n tb_init bytes).
Proof.
  unfold Parse, parseDocument.
  eapply ok_next with (K := fun _ s => B_ s /\ inp s = bytes).
  { apply ok_any; [discriminate|]. intros a _. split; [|reflexivity]. unfold B_. cbn. do 4 (split; [reflexivity|]). apply suffix_refl. }
  intros _ s [Hs Hi]. eapply ok_next with (K := fun _ s => B_ s /\ late_if tb s).
  { destruct Hs as (K1 & K2 & K3 & K4 & K5). destruct (detectEncoding (inp s)) as [[enc rest]|] eqn:Hd; cbn; (apply ok_any; [discriminate|]); intros a _.
    - rewrite Hi in *. apply detect_late in Hd as (u & Hb & Hu). split; [refine (conj K1 (conj K2 (conj K3 (conj K4 _)))); cbn; exists u; exact Hb|].
      unfold late_if. cbn [inp set_inp snd]. intros r Hr. eapply late_drop; [|exact Hu]. rewrite <- Hb. apply (PC u r). congruence.
    - split; [refine (conj K1 (conj K2 (conj K3 (conj K4 K5))))|]. intros r Hr. cbn [snd] in *. rewrite Hi in *. eapply (PC []). eauto. }
  clear s Hs Hi. intros detected s [Hs Hl]. eapply ok_next with (K := fun _ s => B_ s /\ late_if tb s).
  { apply ok_any; [discriminate|]. intros a _. split; [exact Hs|exact Hl]. }
  clear s Hs Hl. intros [|] s [Hs Hl]; [apply ok_any; [discriminate|discriminate]|].
  eapply ok_next with (K := fun b s => B_ s /\ (b = true -> late_percent (inp s))).
  { unfold mhas, lift, phas. apply ok_any; [discriminate|]. cbn [fst snd]. intros a Ha. assert (Hb : a = has_prefix (s_ "<?xml") (inp s)) by congruence.
    subst a. split; [exact Hs|]. intros Hp. apply has_prefix_true in Hp as (r & Hr). eapply Hl; eauto. }
  clear s Hs Hl. intros decl s [Hs Hl]. eapply ok_next with (K := fun _ s => B_ s).
  { destruct decl; [|apply ok_any; [discriminate|intros; exact Hs]]. specialize (Hl eq_refl). unfold bind, lift.
    assert (N1 : fst (pwrap (parseXMLDecl E) (inp s)) <> Pan).
    { pose proof (bend_xmldecl E OK (inp s) Hl) as X. unfold pwrap. destruct (parseXMLDecl E (inp s)) as [[x|e| |] l']; cbn in *; congruence. }
    pose proof (psuf_wrap _ _ (psuf_xmldecl E OK) (inp s)) as N2.
    destruct (pwrap (parseXMLDecl E) (inp s)) as [[x|e| |] l]; cbn [fst snd] in *; try congruence; (apply ok_any; [discriminate|]); intros a Ha; try discriminate.
    destruct Hs as (K1 & K2 & K3 & K4 & K5). refine (conj K1 (conj K2 (conj K3 (conj K4 _)))). cbn. eapply suffix_trans; eauto. }
  clear s Hs Hl. intros _ s Hs. eapply ok_next with (K := fun _ s => attsSpecial s = [] /\ inSubset s = 0 /\ hs s = tb_init /\ nsTab s = [] /\
    refs_ok E nobody (inp s) /\ may_declare (inp s) /\
    (5 * List.length (inp s) < f)%nat /\ (o = true -> one_default (inp s) /\ prefixes_named E (inp s))).
  { unfold wrap, switchEncoding. destruct (Load _ _) as [c|]; (apply ok_any; [discriminate|]); intros a Ha; [|discriminate].
    destruct Hs as (K1 & K2 & K3 & K4 & K5). destruct (BY c (inp s) K5) as ((B1 & B2 & B3) & B4). cbn. auto 10. }
  clear s Hs. intros _ s (K1 & K2 & K3 & K4 & B1 & B2 & B3 & B4). eapply ok_next with (K := fun _ s => D' s).
  { assert (W0 : XmlBuild.wf (tb_heap (hs s))).
    { rewrite K3. exists [], []. exact Forest.forest_empty. }
    assert (E0 : tb_elem (hs s) = None) by (rewrite K3; reflexivity).
    destruct (standing_begin f (hs s) (the_view tb s) W0 E0) as [R1 R2].
    unfold emit, wrap, emit_raw. change (h_event H) with (tb_event f) in *. destruct (tb_event f (hs s) (the_view tb s) EStartDocument) as [h r].
    cbn [fst snd] in *. subst r. apply ok_any; [discriminate|]. intros a _. split; [|exact B2].
    refine (conj (conj B1 (conj R2 _)) (conj B3 (conj _ K2))); [right; auto|]. intros Ho. destruct (B4 Ho) as [O P].
    cbn [nsTab add_event inp]. cbn. rewrite K4. cbn. split; [intros p u []|]. split; [exact P|]. left. split; [intros u []|exact O]. }
  clear s K1 K2 K3 K4 B1 B2 B3 B4. intros _ s [Hs Hd]. eapply ok_next with (K := fun _ s => D' s).
  { destruct (jsafe_wrap Con _ any _ (jsafe_misc n) s Hs) as [A1 A2]. split; [exact A1|]. intros a Ha. split; [apply A2 in Ha; apply Ha|].
    eapply may_suffix; [|exact Hd]. apply msuf_wrap, msuf_misc; exact OK. }
  clear s Hs Hd. intros _ s [Hs Hd]. eapply ok_next with (K := fun b s => J Con s /\ (b = true -> tame (inp s) /\ early_pis (inp s))).
  { unfold mhas, lift, phas. apply ok_any; [discriminate|]. cbn [fst snd]. intros a Ha.
    assert (Hb : a = has_prefix (s_ "<!DOCTYPE") (inp s)) by congruence. subst a. rewrite set_inp_self. split; [exact Hs|].
    intros Hp. apply has_prefix_true in Hp as (r & Hr). destruct Hd as [Hd|[Hd He]]; [exfalso; apply (Hd [] r); exact Hr|]. split; [exact Hd|].
    pose proof (He [] r Hr) as Pr. rewrite Hr. clear - Pr. intros a b X. do 9 (destruct a as [|? a]; [discriminate|injection X as <- X]). exact (Pr a b X). }
  clear s Hs Hd. intros dt s [Hs Hd]. eapply ok_next with (K := fun _ s => J Con s).
  { destruct dt; [destruct (Hd eq_refl); apply con_DTD; assumption|]. apply ok_any; [discriminate|]. intros; exact Hs. }
  clear s dt Hs Hd. intros _ s Hs.
  match goal with |- ok_run _ (?m s) => assert (X : jsafe Con any m); [|destruct (X s Hs) as [X1 X2]; split; [exact X1|intros a Ha; destruct (X2 a Ha) as (_ & Y); eapply J_standing, Y]] end.
  eapply jsafe_bind; [fsolve|]. intros _ _. eapply jsafe_bind; [fsolve|]. intros c _.
  destruct (negb _); [fsolve|]. eapply jsafe_bind; [apply jsafe_wrap, jsafe_element; [apply eff_content|apply jsafe_content]|]. intros _ _.
  eapply jsafe_bind; [apply jsafe_wrap, jsafe_misc|]. intros _ _. eapply jsafe_bind with (Q := any); [apply jsafe_get|]. intros fi _. destruct (negb fi); fsolve.
Qed.
End TD.

Notation usual := (fun E => env_ok E /\ (forall c, isLetter E c || isDigit E c = true -> xml_char c = true) /\ (forall n l, over E n l = [])).
Theorem tree_nil_only E : usual E -> forall f bytes, (forall c rest, suffix rest bytes -> fitting E f (decode E c rest)) ->
  (forall a r, bytes = a ++ s_ "<?xml" ++ r -> late_percent bytes) ->
  forall n, fst (Parse E tb (treeH f) n tb_init bytes) = Pan -> nil_reported (snd (Parse E tb (treeH f) n tb_init bytes)).
Proof.
  intros (OK & NC & OV) f bytes BY PC n. destruct (Parse_into_tree E OK NC OV f false bytes) with (n := n) as [P _]; [|exact PC|].
  - intros c rest Sx. split; [exact (BY c rest Sx)|discriminate].
  - intro X. apply P, X.
Qed.
Theorem tree_no_panic E : usual E -> forall f bytes,
  (forall c rest, suffix rest bytes -> fitting E f (decode E c rest) /\ one_default (decode E c rest) /\ prefixes_named E (decode E c rest)) ->
  (forall a r, bytes = a ++ s_ "<?xml" ++ r -> late_percent bytes) ->
  forall n, fst (Parse E tb (treeH f) n tb_init bytes) <> Pan.
Proof.
  intros (OK & NC & OV) f bytes BY PC n X. destruct (Parse_into_tree E OK NC OV f true bytes) with (n := n) as [P _]; [|exact PC|].
  - intros c rest Sx. destruct (BY c rest Sx) as (A & B). auto.
  - apply P in X as [X _]. discriminate.
Qed.
(* what an accepted input leaves *)
Theorem tree_sound E : usual E -> forall f bytes, (forall c rest, suffix rest bytes -> fitting E f (decode E c rest)) ->
  (forall a r, bytes = a ++ s_ "<?xml" ++ r -> late_percent bytes) ->
  forall n s, Parse E tb (treeH f) n tb_init bytes = (Ret tt, s) -> standing (hs s).
Proof.
  intros (OK & NC & OV) f bytes BY PC n s R. destruct (Parse_into_tree E OK NC OV f false bytes) with (n := n) as [_ P]; [|exact PC|].
  - intros c rest Sx. split; [exact (BY c rest Sx)|discriminate].
  - rewrite R in P. exact (P tt eq_refl).
Qed.

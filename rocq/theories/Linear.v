(* How many callbacks an input can cause: every event is paid for by a
   character, except the three of the document itself and those that come out
   of the replacement text of an entity. *)
From Verif Require Import Base Utf8 Encoding Scan ScanProofs Parser Term.
From Coq Require Import ZifyBool.

(* ---- scanners that consume something when they succeed ---- *)
Definition eats {A} (p : P A) : Prop := forall l a l', p l = (Ret a, l') -> (List.length l' < List.length l)%nat.

Section Eats.
Variable E : env.
Hypothesis OK : env_ok E.
Hint Resolve psuf_advance psuf_peek psuf_peekn psuf_has psuf_consume psuf_skip psuf_bpeek psuf_bclose psuf_skipb psuf_scanName
  psuf_name psuf_ncname psuf_nmtoken psuf_qname psuf_pitarget psuf_adv psuf_childrenDecl psuf_mixed psuf_content : scan.
Lemma has_length : forall p l, has_prefix p l = true -> (List.length p <= List.length l)%nat.
Proof.
  induction p as [|c p IH]; intros [|d l] Hp; cbn [has_prefix List.length] in *; try lia; try discriminate.
  apply andb_true_iff in Hp as [_ Hp]. apply IH in Hp. lia.
Qed.
Lemma eats_consume : forall A p (f : bool -> P A), p <> [] -> psuf (f true) -> (forall l a l', f false l <> (Ret a, l')) ->
  eats (pbind (pconsume p) f).
Proof.
  intros A p f Hp Ht Hf l a l' Hr. unfold pbind, pconsume in Hr. destruct (has_prefix p l) eqn:Hx.
  - specialize (Ht (skipn (List.length p) l)). rewrite Hr in Ht. cbn [snd] in Ht. apply suffix_length in Ht.
    rewrite skipn_length in Ht. apply has_length in Hx. destruct p; [congruence|]. cbn [List.length] in *. lia.
  - exfalso. exact (Hf _ _ _ Hr).
Qed.
Lemma eats_pi : eats (scanPI E).
Proof.
  unfold scanPI. apply eats_consume; [discriminate| |intros; discriminate]. cbn [negb].
  apply psuf_bind; [pauto|]. intro. apply psuf_bind; [pauto|]. intro. destruct a0; [pauto|].
  apply psuf_bind; [pauto|]. intro. destruct (negb _); [pauto|]. apply psuf_bind; [pauto|]. intro.
  apply psuf_bind; [apply psuf_adv with (h := fun l => List.length (piLoop E l)); auto|]. intro. pauto.
Qed.
Lemma eats_comment : eats (scanComment E).
Proof.
  unfold scanComment. apply eats_consume; [discriminate| |intros; discriminate]. cbn [negb]. intro l.
  destruct (negb (isChar (peekn E 1 l))); simpl; [apply suffix_refl|]. destruct (negb (isChar (peekn E 2 l))); simpl; [apply suffix_refl|].
  destruct (commentLoop _ _ _); simpl; [apply suffix_advance; auto|apply suffix_refl].
Qed.
Lemma eats_elementdecl : forall n, eats (scanElementDecl E n).
Proof.
  intros n. unfold scanElementDecl. apply eats_consume; [discriminate| |intros; discriminate]. cbn [negb]. pauto.
Qed.
Lemma eats_charref : eats (parseCharRef E).
Proof.
  assert (Ht : forall hex : bool, psuf (fun l => match crefLoop (if hex then accHex else accDec) 0 l with
    | (None, l') => (Fail (Plain (if hex then "invalid hex CharRef" else "invalid decimal CharRef")%string), l')
    | (Some val, l') =>
        let l'' := if peek E l' =? 59 then advance E 1 l' else l' in
        if isChar val && (val <=? 1114111) then (Ret val, l'') else (Fail (Plain "ErrInvalidChar"%string), l'')
    end)).
  { intros hex l. pose proof (suffix_cref (if hex then accHex else accDec) l 0). destruct (crefLoop _ _ _) as [[v|] l']; simpl in *; auto.
    assert (suffix (if peek E l' =? 59 then advance E 1 l' else l') l).
    { destruct (_ =? _); auto. eapply suffix_trans; [apply suffix_advance; auto|auto]. }
    destruct (_ && _); simpl; auto. }
  intros l a l' Hr. unfold parseCharRef in Hr.
  unfold pbind at 1 in Hr. unfold pconsume at 1 in Hr. destruct (has_prefix (s_ "&#x") l) eqn:Hx.
  - unfold pbind, pret in Hr. cbn [negb] in Hr. specialize (Ht true (skipn (List.length (s_ "&#x")) l)). 
    match type of Hr with ?X = _ => match type of Ht with suffix _ ?r => change (suffix (snd X) r) in Ht end end. rewrite Hr in Ht. cbn [snd] in Ht. apply suffix_length in Ht. rewrite skipn_length in Ht. apply has_length in Hx.
    change (List.length (s_ "&#x")) with 3%nat in *. lia.
  - revert l a l' Hr Hx. intros l a l' Hr _. revert l a l' Hr. apply (eats_consume _ (s_ "&#")); [discriminate|exact (Ht false)|intros; discriminate].
Qed.
Lemma eats_chardata : forall b, eats (scanCharData E b).
Proof.
  intros b l a l' Hr. unfold scanCharData in Hr. destruct (charDataLoop E b l) as [[|c cs]| |] eqn:Hc; inversion Hr; subst.
  destruct (charDataLoop_prefix E b _ _ Hc) as (t & ->). unfold advance.
  match goal with |- context [(?a <=? ?b)%nat] => destruct (Nat.leb_spec a b) as [Hle|Hle] end;
    cbn [List.length app] in Hle; rewrite app_length in Hle; [|exfalso; lia].
  rewrite skipn_length. cbn [List.length app]. rewrite app_length. lia.
Qed.
End Eats.

(* ---- the parser ---- *)
Section L.
Variable E : env.
Hypothesis OK : env_ok E.
(* a decoder makes at most one character out of a byte *)
Hypothesis DL : forall c l, (List.length (decode E c l) <= List.length l)%nat.
Variable S : Type.
Variable H : handler S.
(* EX: the handler may know a general entity *)
Variable EX : Prop.
Hypothesis QE : forall h v n e b, snd (h_getEntity H h v n) = Answer (Some (Real e)) b -> e_type e = InternalGeneralEntity -> EX.
Hypothesis QD : forall h n e, h_docEntity H h n = Some (Some e) -> e_type e = InternalGeneralEntity -> EX.

Notation pst := (pst S).
Notation M := (M S).
Local Notation bind := (@bind S _ _).
Definition weight (s : pst) : Z := Z.of_nat (List.length (tr s)) + Z.of_nat (List.length (inp s)).
(* a reference was reported *)
Definition referred (s : pst) : Prop := exists x r, In (EReference x, r) (tr s).
Definition grown (s s' : pst) : Prop := exists t, tr s' = t ++ tr s.
(* success leaves c to spend, failure owes at most d *)
Definition lin {A} (c d : Z) (Q : A -> Prop) (m : M A) : Prop := forall s o s', m s = (o, s') ->
  grown s s' /\
  match o with
  | Ret a => Q a /\ (weight s' + c <= weight s \/ (EX /\ referred s'))
  | _ => weight s' <= weight s + d \/ EX
  end.

Lemma grown_refl : forall s, grown s s. Proof. intros s; exists []; reflexivity. Qed.
Lemma grown_trans : forall a b c, grown a b -> grown b c -> grown a c.
Proof. intros a b c (t & Ht) (u & Hu). exists (u ++ t). rewrite Hu, Ht, app_assoc. reflexivity. Qed.
Lemma referred_grown : forall s s', grown s s' -> referred s -> referred s'.
Proof. intros s s' (t & Ht) (x & r & Hi). exists x, r. rewrite Ht. apply in_or_app. auto. Qed.

Lemma lin_weak : forall A c d c' d' (Q Q' : A -> Prop) m, lin c d Q m -> c' <= c -> d <= d' -> (forall a, Q a -> Q' a) -> lin c' d' Q' m.
Proof.
  intros A c d c' d' Q Q' m Hm Hc Hd HQ s o s' Hr. destruct (Hm _ _ _ Hr) as [Hg Ho]. split; auto.
  destruct o; try (destruct Ho; [left; lia|auto]). destruct Ho as [Hq [Ho|Ho]]; auto. split; auto. left; lia.
Qed.
Lemma lin_bind : forall A B c d c1 d1 (Q1 : A -> Prop) (Q : B -> Prop) m f, lin c1 d1 Q1 m ->
  (forall a, Q1 a -> lin (c - c1) (d + c1) Q (f a)) -> d1 <= d -> lin c d Q (bind m f).
Proof.
  intros A B c d c1 d1 Q1 Q m f Hm Hf Hd s o s' Hr. unfold Parser.bind in Hr.
  destruct (m s) as [o1 s1] eqn:H1. destruct (Hm _ _ _ H1) as [G1 O1].
  destruct o1 as [a|e| |]; try (inversion Hr; subst; split; auto; destruct O1; [left; lia|auto]).
  destruct O1 as [Hq O1]. destruct (Hf a Hq _ _ _ Hr) as [G2 O2]. split; [eapply grown_trans; eauto|].
  destruct o as [b|e| |].
  - destruct O2 as [Hqb O2]. split; auto. destruct O1 as [O1|[O1 R1]].
    + destruct O2 as [O2|O2]; auto. left; lia.
    + right; split; auto. eapply referred_grown; eauto.
  - destruct O1 as [O1|[O1 R1]]; auto. destruct O2; auto. left; lia.
  - destruct O1 as [O1|[O1 R1]]; auto. destruct O2; auto. left; lia.
  - destruct O1 as [O1|[O1 R1]]; auto. destruct O2; auto. left; lia.
Qed.
Definition T {A} : A -> Prop := fun _ => True.
Lemma lin_bind0 : forall A B c d (Q1 : A -> Prop) (Q : B -> Prop) m f, 0 <= d -> lin 0 0 Q1 m -> (forall a, Q1 a -> lin c d Q (f a)) -> lin c d Q (bind m f).
Proof.
  intros A B c d Q1 Q m f Hd Hm Hf. apply lin_bind with (c1 := 0) (d1 := 0) (Q1 := Q1); auto.
  intros a Ha. replace (c - 0) with c by lia. replace (d + 0) with d by lia. auto.
Qed.
Lemma lin_ret : forall A c d (Q : A -> Prop) a, c <= 0 -> Q a -> lin c d Q (ret S a).
Proof. intros A c d Q a Hc Hq s o s' Hr. inversion Hr; subst. split; [apply grown_refl|]. split; auto. left; lia. Qed.
Lemma lin_fail : forall A c d (Q : A -> Prop) e, 0 <= d -> lin c d Q (fail S e).
Proof. intros A c d Q e Hd s o s' Hr. inversion Hr; subst. split; [apply grown_refl|]. left; lia. Qed.
Lemma lin_failw : forall A c d (Q : A -> Prop) e, 0 <= d -> lin c d Q (failw S e).
Proof. intros; apply lin_fail; auto. Qed.
Lemma lin_pan : forall A c d (Q : A -> Prop), 0 <= d -> lin c d Q (pan S).
Proof. intros A c d Q Hd s o s' Hr. inversion Hr; subst. split; [apply grown_refl|]. left; lia. Qed.
Lemma lin_oof : forall A c d (Q : A -> Prop), 0 <= d -> lin c d Q (oof S).
Proof. intros A c d Q Hd s o s' Hr. inversion Hr; subst. split; [apply grown_refl|]. left; lia. Qed.
Lemma lin_wrap : forall A c d (Q : A -> Prop) m, lin c d Q m -> lin c d Q (wrap S m).
Proof.
  intros A c d Q m Hm s o s' Hr. unfold wrap in Hr. destruct (m s) as [o1 s1] eqn:H1. destruct (Hm _ _ _ H1) as [G O].
  destruct o1; inversion Hr; subst; auto.
Qed.
Lemma lin_get : forall A (f : pst -> A), lin 0 0 T (get S f).
Proof. intros A f s o s' Hr. inversion Hr; subst. split; [apply grown_refl|]. split; [exact I|left; lia]. Qed.
Lemma lin_modify : forall f, (forall s, inp (f s) = inp s /\ tr (f s) = tr s) -> lin 0 0 T (modify S f).
Proof.
  intros f Hf s o s' Hr. inversion Hr; subst. destruct (Hf s) as [Hi Ht]. split; [exists []; auto|].
  split; [exact I|]. left. unfold weight. rewrite Hi, Ht. lia.
Qed.
Lemma lin_mlift : forall A (x : outcome gerr A), lin 0 0 T (mlift S x).
Proof. intros A x s o s' Hr. inversion Hr; subst. split; [apply grown_refl|]. destruct o; try (left; lia). split; [exact I|left; lia]. Qed.
Lemma lin_lift : forall A (p : P A), psuf p -> lin 0 0 T (lift S p).
Proof.
  intros A p Hp s o s' Hr. unfold lift in Hr. specialize (Hp (inp s)). destruct (p (inp s)) as [o1 l1]. inversion Hr; subst.
  cbn [snd] in Hp. apply suffix_length in Hp. split; [exists []; reflexivity|].
  assert (weight (set_inp S l1 s) <= weight s) by (unfold weight; cbn; lia).
  destruct o; try (left; lia). split; [exact I|left; lia].
Qed.
Lemma lin_eats : forall A (p : P A), psuf p -> eats p -> lin 1 0 T (lift S p).
Proof.
  intros A p Hp He s o s' Hr. unfold lift in Hr. specialize (Hp (inp s)). specialize (He (inp s)). destruct (p (inp s)) as [o1 l1]. inversion Hr; subst.
  cbn [snd] in Hp. apply suffix_length in Hp. split; [exists []; reflexivity|].
  assert (weight (set_inp S l1 s) <= weight s) by (unfold weight; cbn; lia).
  destruct o; try (left; lia). split; [exact I|left]. specialize (He _ _ eq_refl). unfold weight; cbn; lia.
Qed.
Lemma lin_emit_raw : forall e, lin (-1) 1 T (emit_raw S H e).
Proof.
  intros e s o s' Hr. unfold emit_raw in Hr. destruct (h_event H (hs s) (the_view S s) e) as [h' r].
  set (s1 := add_event S h' (e, r) s) in *.
  assert (grown s s1) by (exists [(e, r)]; reflexivity).
  assert (weight s1 = weight s + 1) by (unfold weight, s1; cbn [add_event tr inp List.length]; lia).
  destruct r; inversion Hr; subst; split; auto; try (left; lia). all: split; [exact I|left; lia].
Qed.
Lemma lin_emit : forall e, lin (-1) 1 T (emit S H e).
Proof. intros; apply lin_wrap, lin_emit_raw. Qed.
Lemma lin_then_emit : forall B c d e (Q : B -> Prop) f, 1 <= d -> (forall a, lin (c + 1) (d - 1) Q (f a)) -> lin c d Q (bind (emit S H e) f).
Proof.
  intros B c d e Q f Hd Hf. apply lin_bind with (c1 := -1) (d1 := 1) (Q1 := T); auto. apply lin_emit.
Qed.
Lemma lin_last_emit : forall c d e, c <= -1 -> 1 <= d -> lin c d T (emit S H e).
Proof. intros c d e Hc Hd. eapply lin_weak; [apply lin_emit|lia|lia|auto]. Qed.
(* the guards that pay for what follows *)
Lemma lin_consume : forall B c d p (Q : B -> Prop) f, lin (c - Z.of_nat (List.length p)) (d + Z.of_nat (List.length p)) Q (f true) -> lin c d Q (f false) ->
  lin c d Q (bind (mconsume S p) f).
Proof.
  intros B c d p Q f Ht Hf s o s' Hr. unfold mconsume, Parser.bind, lift, pconsume in Hr. destruct (has_prefix p (inp s)) eqn:Hp.
  - assert (Hw : weight (set_inp S (skipn (List.length p) (inp s)) s) + Z.of_nat (List.length p) = weight s).
    { unfold weight. cbn [set_inp inp tr]. rewrite skipn_length. apply has_length in Hp. lia. }
    destruct (Ht _ _ _ Hr) as [(t & Hg) Ho]. split; [exists t; exact Hg|].
    destruct o as [b| | |]; try (destruct Ho; [left; lia|auto]). destruct Ho as [Hq [Ho|Ho]]; auto. split; auto. left; lia.
  - destruct (Hf _ _ _ Hr) as [(t & Hg) Ho]. split; [exists t; exact Hg|]. exact Ho.
Qed.
Lemma peek_some : forall l k, peek E l = k -> 0 < k < 60000 -> exists t, l = k :: t.
Proof.
  intros [|x l] k Hp Hk. { exfalso. unfold peek in Hp. cbn in Hp. unfold RuneError in *. destruct (ok_eofr E OK) as [e|e]; unfold RuneError in e; rewrite e in Hp; lia. }
  unfold peek in Hp. cbn in Hp. subst. eauto.
Qed.
Lemma lin_at : forall B c d k x (Q : B -> Prop) f, 0 < k < 60000 -> 0 <= d -> (forall a, lin (c - 1) (d + 1) Q (f a)) ->
  lin c d Q (bind (mpeek E S) (fun c0 => if negb (c0 =? k) then failw S x else bind (madvance E S 1) f)).
Proof.
  intros B c d k x Q f Hk Hd Hf s o s' Hr. unfold mpeek, madvance, Parser.bind, lift, ppeek, padvance in Hr.
  cbn [set_inp inp] in Hr. destruct (Z.eqb_spec (peek E (inp s)) k) as [Hp|Hp]; cbn [negb] in Hr.
  - destruct (peek_some _ _ Hp Hk) as [t Ht]. rewrite Ht in Hr.
    change (advance E 1 (k :: t)) with t in Hr.
    match type of Hr with f ?b ?z = _ => assert (Hw : weight z + 1 = weight s) by (unfold weight; cbn [set_inp inp tr]; rewrite Ht; change (advance E 1 (k :: t)) with t; cbn [List.length]; lia); destruct (Hf b _ _ _ Hr) as [(u & Hg) Ho] end.
    split; [exists u; exact Hg|].
    destruct o as [b| | |]; try (destruct Ho; [left; lia|auto]). destruct Ho as [Hq [Ho|Ho]]; auto. split; auto. left; lia.
  - inversion Hr; subst. split; [exists []; reflexivity|]. left. unfold weight. cbn. lia.
Qed.
Lemma lin_blank : forall B c d x (Q : B -> Prop) f, 0 <= d -> (forall a, lin (c - 1) (d + 1) Q (f a)) ->
  lin c d Q (bind (mpeek E S) (fun c0 => if negb (isBlankCh c0) then failw S x else bind (mskip S) f)).
Proof.
  intros B c d x Q f Hd Hf s o s' Hr. unfold mpeek, mskip, Parser.bind, lift, ppeek, skipBlanks in Hr.
  cbn [set_inp inp] in Hr. destruct (isBlankCh (peek E (inp s))) eqn:Hp; cbn [negb] in Hr.
  - assert (Hl : (List.length (dropW isBlankCh (inp s)) < List.length (inp s))%nat).
    { destruct (inp s) as [|a l]. { exfalso. unfold peek in Hp. cbn in Hp. destruct (ok_eofr E OK) as [e|e]; rewrite e in Hp; discriminate. }
      unfold peek in Hp. cbn in Hp. cbn [dropW]. rewrite Hp. pose proof (suffix_length _ _ (suffix_dropW isBlankCh l)). cbn [List.length]. lia. }
    match type of Hr with f ?b ?z = _ => assert (Hw : weight z + 1 <= weight s) by (unfold weight; cbn [set_inp inp tr]; lia); destruct (Hf b _ _ _ Hr) as [(u & Hg) Ho] end.
    split; [exists u; exact Hg|].
    destruct o as [b| | |]; try (destruct Ho; [left; lia|auto]). destruct Ho as [Hq [Ho|Ho]]; auto. split; auto. left; lia.
  - inversion Hr; subst. split; [exists []; reflexivity|]. left. unfold weight. cbn. lia.
Qed.
Lemma lin_always : forall A (m : M A) p, lin 0 0 T m -> psuf p -> lin 0 0 T (always S m p).
Proof.
  intros A m p Hm Hp s o s' Hr. unfold always in Hr. destruct (m s) as [o1 s1] eqn:H1. destruct (Hm _ _ _ H1) as [G O].
  specialize (Hp (inp s1)). apply suffix_length in Hp.
  assert (weight (set_inp S (snd (p (inp s1))) s1) <= weight s1) by (unfold weight; cbn [set_inp inp tr]; lia).
  destruct o1 as [a|e| |]; inversion Hr; subst; split; auto.
  - destruct O as [_ [O|(O & x & r & Hi)]]; split; try exact I. left; lia. right; split; auto. exists x, r; exact Hi.
  - destruct O as [O|O]; auto. left; lia.
Qed.
(* a step that looks at the input and goes on with a program it chooses *)
Lemma lin_look : forall A c d (Q : A -> Prop) (f : pst -> M A), (forall s, lin c d Q (f s)) -> lin c d Q (fun s => f s s).
Proof. intros A c d Q f Hf s o s' Hr. exact (Hf s s o s' Hr). Qed.
Hint Resolve psuf_advance psuf_peek psuf_peekn psuf_has psuf_consume psuf_skip psuf_bpeek psuf_bclose psuf_skipb psuf_scanName
  psuf_name psuf_ncname psuf_nmtoken psuf_qname psuf_charref psuf_pitarget psuf_adv psuf_childrenDecl psuf_mixed psuf_content psuf_pi psuf_comment
  psuf_chardata psuf_xmldecl psuf_entityvalue psuf_elementdecl psuf_attrtype : scan.
Ltac mon := first [eassumption | apply lin_get | apply lin_mlift | (apply lin_modify; intros; split; reflexivity)
  | (apply lin_wrap; eassumption) | (unfold mpeek, mpeekn, madvance, mhas, mskip, mdone; first [apply lin_get | apply lin_lift; solve [pauto]])].
Ltac known_length := repeat match goal with |- context [List.length (s_ ?x)] =>
  let v := eval vm_compute in (List.length (s_ x)) in change (List.length (s_ x)) with v end.
Ltac lstep :=
  match goal with
  | |- lin _ _ _ (let _ := _ in _) => cbv zeta
  | |- lin _ _ _ (Parser.bind _ (emit _ _ _) _) => apply lin_then_emit; [lia|intros _]
  | |- lin _ _ _ (Parser.bind _ (mconsume _ _) _) => apply lin_consume; known_length
  | |- lin _ _ _ (Parser.bind _ (mpeek _ _) _) => first [apply lin_at; [lia|lia|intros _] | apply lin_blank; [lia|intros _]]
  | |- lin _ _ _ (Parser.bind _ (ret _ _) _) => eapply lin_bind0 with (Q1 := T); [lia|apply lin_ret; [lia|exact I]|intros ? _]
  | |- lin _ _ _ (Parser.bind _ (if _ then _ else _) _) => eapply lin_bind0 with (Q1 := T); [lia| |intros ? _]
  | |- lin _ _ _ (Parser.bind _ (Parser.bind _ _ _) _) => eapply lin_bind0 with (Q1 := T); [lia| |intros ? _]
  | |- lin _ _ _ (Parser.bind _ _ _) => eapply lin_bind0; [lia|solve [mon]|intros ? _]
  | |- lin _ _ _ (if true then _ else _) => cbv iota
  | |- lin _ _ _ (if false then _ else _) => cbv iota
  | |- lin _ _ _ (if negb true then _ else _) => cbn [negb]
  | |- lin _ _ _ (if negb false then _ else _) => cbn [negb]
  | |- lin _ _ _ (if ?b then _ else _) => destruct b
  | |- lin _ _ _ (match ?x with _ => _ end) => destruct x
  | |- lin _ _ _ (ret _ _) => apply lin_ret; [lia|try exact I]
  | |- lin _ _ _ (failw _ _) => apply lin_failw; lia
  | |- lin _ _ _ (fail _ _) => apply lin_fail; lia
  | |- lin _ _ _ (pan _) => apply lin_pan; lia
  | |- lin _ _ _ (oof _) => apply lin_oof; lia
  | |- lin _ _ _ (emit _ _ _) => apply lin_last_emit; lia
  | |- lin _ _ _ _ => eapply lin_weak; [solve [mon]|lia|lia|auto]
  end.
Ltac lauto := repeat lstep.

Lemma lin_parsePI : lin 0 0 T (parsePI E S H).
Proof. unfold parsePI. eapply lin_bind with (c1 := 1) (d1 := 0); [apply lin_eats; auto using eats_pi with scan|intros td _|lia]. lauto. Qed.
Lemma lin_parseComment : lin 0 0 T (parseComment E S H).
Proof. unfold parseComment. eapply lin_bind with (c1 := 1) (d1 := 0); [apply lin_eats; auto using eats_comment with scan|intros td _|lia]. lauto. Qed.
Lemma lin_areBlanks : forall t, lin 0 0 T (areBlanks E S H t).
Proof. intros t. apply (lin_get _ (fun s => _)). Qed.
Lemma lin_parseCharData : forall b, lin 0 0 T (parseCharData E S H b).
Proof.
  intros b. unfold parseCharData. eapply lin_bind with (c1 := 1) (d1 := 0); [apply lin_eats; auto using eats_chardata with scan|intros t _|lia].
  destruct b; [lauto|]. eapply lin_bind0; [lia|apply lin_areBlanks|intros b _]. lauto.
Qed.
Lemma lin_parseCDSect : lin 0 0 T (parseCDSect E S H).
Proof. pose proof (lin_parseCharData true). unfold parseCDSect. lauto. Qed.
Lemma lin_queryEntity : forall n, lin 0 0 (fun a => forall e, fst a = Some (Real e) -> e_type e = InternalGeneralEntity -> EX) (queryEntity S H n).
Proof.
  intros n s o s' Hr. unfold queryEntity in Hr. pose proof (QE (hs s) (the_view S s) n) as G. destruct (h_getEntity H (hs s) (the_view S s) n) as [h' a].
  cbn [snd] in G. destruct a as [e err|]; inversion Hr; subst; (split; [exists []; reflexivity|]).
  - split; [|left; unfold weight; cbn; lia]. cbn [fst]. intros e0 ->. eapply G; eauto.
  - left; unfold weight; cbn; lia.
Qed.
Lemma lin_queryPEntity : forall n, lin 0 0 T (queryPEntity S H n).
Proof.
  intros n s o s' Hr. unfold queryPEntity in Hr. destruct (h_getPEntity H (hs s) (the_view S s) n) as [h' a].
  destruct a as [e err|]; inversion Hr; subst; (split; [exists []; reflexivity|]).
  - split; [exact I|left; unfold weight; cbn; lia].
  - left; unfold weight; cbn; lia.
Qed.
Lemma lin_getEntity : forall n, lin 0 0 (fun a => forall e, a = Some e -> e_type e = InternalGeneralEntity -> EX) (getEntity S H n).
Proof.
  intros n s o s' Hr. unfold getEntity in Hr. destruct (inSubset s =? 0); [inversion Hr; subst; split; [apply grown_refl|]; split; [discriminate|left; lia]|].
  pose proof (QD (hs s) n) as G. destruct (h_docEntity H (hs s) n) as [r|]; inversion Hr; subst; (split; [apply grown_refl|]).
  - split; [|left; lia]. intros e ->. apply G; auto.
  - left; lia.
Qed.
(* an entity that comes back from here is general only if the handler knows such *)
Definition fits (e : ent) : Prop := e_type e = InternalGeneralEntity -> EX.
Lemma lin_parseEntityRef : lin 1 0 fits (parseEntityRef E S H).
Proof.
  unfold parseEntityRef. apply lin_at; [lia|lia|intros _]. lstep.
  apply lin_at; [lia|lia|intros _]. destruct (predefined a) as [v|].
  { apply lin_ret; [lia|]. intros Hx. discriminate Hx. }
  eapply lin_bind0; [lia|apply lin_queryEntity|intros q Hq]. destruct (negb (snd q)).
  - destruct (fst q) as [[e|z]|] eqn:Hf; [|lauto|lauto]. apply lin_ret; [lia|]. exact (Hq e Hf).
  - eapply lin_bind0 with (Q1 := fun a => forall e, a = Some e -> e_type e = InternalGeneralEntity -> EX); [lia| |intros me Hme].
    { destruct (fst q). apply lin_ret; [lia|discriminate]. apply lin_getEntity. }
    destruct me as [e|].
    + destruct (_ =? _); [lauto|]. destruct (_ =? _); [lauto|]. apply lin_ret; [lia|]. exact (Hme e eq_refl).
    + lstep. lstep. lstep; [lauto|]. lstep. destruct (_ =? 0); lauto.
Qed.
Lemma lin_attrValueLoop : forall n q nm b sp k, lin 0 0 T (attrValueLoop E S H n q nm b sp k).
Proof.
  pose proof lin_parseEntityRef as He.
  induction n; intros; cbn [attrValueLoop]; [lauto|].
  eapply lin_bind0; [lia|mon|intros c _]. destruct (_ || _ || _); [lauto|]. destruct (_ =? 38).
  - eapply lin_bind0; [lia|mon|intros c2 _]. destruct (_ =? 35).
    + eapply lin_bind0 with (Q1 := T); [lia|apply lin_wrap; mon|intros r _]. apply IHn.
    + eapply lin_bind0 with (Q1 := T); [lia|eapply lin_weak; [apply lin_wrap, He|lia|lia|intros; exact I]|intros r _]. apply IHn.
  - destruct (_ || _ || _ || _); (eapply lin_bind0; [lia|mon|intros ? _]); apply IHn.
Qed.
Lemma lin_internal : forall n q nm, lin 0 0 T (parseAttributeValueInternal E S H n q nm).
Proof. intros; apply lin_attrValueLoop. Qed.
Lemma lin_parseAttributeValue : forall n nm, lin 0 0 T (parseAttributeValue E S H n nm).
Proof.
  intros n nm. unfold parseAttributeValue. eapply lin_bind0; [lia|mon|intros q _]. destruct (_ || _); [|lauto].
  eapply lin_bind0; [lia|mon|intros ? _]. apply lin_always. apply lin_internal.
  intros l. cbn [snd]. destruct (_ =? _). apply suffix_advance; auto. apply suffix_refl.
Qed.
Lemma lin_parseAttribute : forall n e, lin 0 0 T (parseAttribute E S H n e).
Proof.
  intros n e. pose proof (lin_parseAttributeValue n) as Hv. unfold parseAttribute. lstep. destruct a as [l p]. lstep. cbv zeta. lstep. lstep. lstep.
  eapply lin_bind0; [lia|apply lin_wrap, Hv|intros ve _]. destruct (_ && _); lauto.
Qed.
Lemma lin_afterNSDecl : lin 0 0 T (afterNSDecl E S).
Proof. unfold afterNSDecl. eapply lin_bind0; [lia|mon|intros c _]. lauto. Qed.
Lemma lin_attrLoop : forall n l a k, lin 0 0 T (attrLoop E S H n l a k).
Proof.
  pose proof lin_afterNSDecl as Hns.
  induction n; intros; cbn [attrLoop]; [lauto|]. pose proof (lin_parseAttribute n l) as Ha.
  lstep. eapply lin_bind0; [lia|mon|intros c _]. destruct (_ =? 62); [lauto|]. lstep. destruct (_ && _); [lauto|].
  eapply lin_bind0; [lia|mon|intros [[an ap] av] _]. cbv zeta.
  repeat first [apply IHn | lstep].
Qed.
Lemma lin_parseStartTag : forall n, lin 0 0 T (parseStartTag E S H n).
Proof.
  intros n. pose proof (lin_attrLoop n) as Ha. unfold parseStartTag. lstep. lstep. destruct a as [local prefix]. destruct local as [|x local]; [lauto|].
  eapply lin_bind0; [lia|apply Ha|intros r _]. destruct r as [at0 nb]. lauto.
Qed.
Lemma lin_parseEndTag : lin 0 0 T (parseEndTag E S H).
Proof.
  unfold parseEndTag. apply lin_consume; change (List.length (s_ "/>")) with 2%nat.
  - lstep. eapply lin_bind0 with (Q1 := T); [lia|apply lin_ret; [lia|exact I]|intros _ _]. lauto.
  - lstep. eapply lin_bind with (c1 := 1) (d1 := 0) (Q1 := T); [|intros _ _; lauto|lia].
    apply lin_consume; change (List.length (s_ "</")) with 2%nat; [|lauto]. cbn [negb]. destruct a as [|e l]; [lauto|].
    apply lin_consume; [|lauto]. cbn [negb]. eapply lin_bind0; [lia|mon|intros c _]. lauto.
Qed.
Lemma lin_parseElement : forall n m, lin 0 0 T m -> lin 0 0 T (parseElement E S H n m).
Proof. intros n m Hm. pose proof (lin_parseStartTag n). pose proof lin_parseEndTag. unfold parseElement. lauto. Qed.
Lemma chunk_grows : forall m c s o s', lin 0 0 T m -> parseBalancedChunk S H m c s = (o, s') -> grown s s'.
Proof.
  intros m c s o s' Hm Hr. unfold parseBalancedChunk in Hr. destruct (_ <? _); [inversion Hr; apply grown_refl|].
  match type of Hr with (let '(_, _) := m ?z in _) = _ => destruct (m z) as [o1 s1] eqn:H1; destruct (Hm _ _ _ H1) as [(t & Hg) _] end.
  inversion Hr; subst. exists t. exact Hg.
Qed.
Lemma lin_parseReference : forall m, lin 0 0 T m -> lin 0 0 T (parseReference E S H m).
Proof.
  intros m Hm. unfold parseReference. eapply lin_bind0; [lia|mon|intros c _]. lstep; [lauto|]. lstep. lstep.
  - eapply lin_bind with (c1 := 1) (d1 := 0); [apply lin_wrap, lin_eats; auto using eats_charref with scan|intros v _|lia]. lauto.
  - eapply lin_bind with (c1 := 1) (d1 := 0); [apply lin_wrap, lin_parseEntityRef|intros e He|lia].
    destruct (_ || _); [lauto|]. lstep; [lauto|]. destruct (Z.eqb_spec (e_type e) InternalGeneralEntity) as [Ht|Ht]; [|lauto].
    specialize (He Ht). intros s o s' Hr. unfold Parser.bind in Hr. destruct (parseBalancedChunk S H m (e_content e) s) as [o1 s1] eqn:H1.
    pose proof (chunk_grows _ _ _ _ _ Hm H1) as G1. destruct o1 as [[]|x| |]; try (inversion Hr; subst; auto; fail).
    unfold emit_raw in Hr. destruct (h_event H (hs s1) (the_view S s1) (EReference (e_name e))) as [h' r].
    assert (G2 : grown s (add_event S h' (EReference (e_name e), r) s1)) by (eapply grown_trans; [exact G1|exists [(EReference (e_name e), r)]; reflexivity]).
    destruct r; inversion Hr; subst; split; auto; split; try exact I; right; split; auto; eexists; eexists; left; reflexivity.
Qed.
Lemma lin_parseContent : forall n, lin 0 0 T (parseContent E S H n).
Proof.
  induction n; cbn [parseContent]; [lauto|]. pose proof lin_parsePI. pose proof lin_parseCDSect. pose proof lin_parseComment.
  pose proof (lin_parseElement n _ IHn). pose proof (lin_parseReference _ IHn). pose proof (lin_parseCharData false).
  lstep. destruct a; [lauto|]. apply (lin_look _ 0 0 T (fun s => _)). intros s. cbv zeta. lauto.
Qed.
Lemma lin_parseMisc : forall n, lin 0 0 T (parseMisc E S H n).
Proof.
  induction n; cbn [parseMisc]; [lauto|]. pose proof lin_parsePI. pose proof lin_parseComment.
  lstep. destruct a; [lauto|]. apply (lin_look _ 0 0 T (fun s => _)). intros s. cbv zeta. lauto.
Qed.
(* ---- the internal subset ---- *)
Lemma lin_parseDocTypeDecl : lin 1 0 T (parseDocTypeDecl E S H).
Proof. unfold parseDocTypeDecl. repeat first [lstep | eapply lin_bind0; [lia|mon|intros ? _]]. Qed.
Lemma lin_parsePEReference : lin 0 0 T (parsePEReference E S H).
Proof.
  unfold parsePEReference. repeat first [lstep | (eapply lin_bind0; [lia|apply lin_queryPEntity|intros ? _]) | (eapply lin_bind0; [lia|mon|intros ? _])].
Qed.
Lemma lin_parseElementDecl : forall n, lin 0 0 T (parseElementDecl E S H n).
Proof.
  intros n. unfold parseElementDecl. eapply lin_bind with (c1 := 1) (d1 := 0); [apply lin_eats; auto using eats_elementdecl with scan|intros [[a b] c] _|lia]. lauto.
Qed.
Lemma lin_unquoted : forall x, lin (-1) 1 T (unquotedEntity E S H x).
Proof. intros x. unfold unquotedEntity. repeat first [lstep | (eapply lin_bind0; [lia|mon|intros ? _])]. Qed.
Lemma lin_parseEntityDecl : lin 0 0 T (parseEntityDecl E S H).
Proof.
  unfold parseEntityDecl. lstep; [|lauto]. cbn [negb]. lstep. lstep; [lauto|]. eapply lin_bind0; [lia|mon|intros c _].
  lstep. { lauto. } lstep. lstep; [lauto|]. lstep. lstep; [lauto|]. eapply lin_bind0; [lia|mon|intros c2 _].
  eapply lin_bind with (c1 := -1) (d1 := 1) (Q1 := T); [| |lia].
  { destruct (_ || _).
    - eapply lin_bind0; [lia|apply lin_lift; pauto|intros [x|[li v]] _]; lauto.
    - destruct a0.
      + lauto.
      + eapply lin_bind with (c1 := -1) (d1 := 1); [apply lin_unquoted|intros ? _|lia]. lauto. }
  intros lit _. lstep. apply lin_at; [lia|lia|intros _].
  eapply lin_bind0 with (Q1 := T); [lia| |intros q _].
  { destruct a0; [apply lin_queryPEntity|]. eapply lin_weak; [apply lin_queryEntity|lia|lia|intros; exact I]. }
  lauto.
Qed.
Lemma lin_parseDefaultDecl : forall n, lin 0 0 T (parseDefaultDecl E S H n).
Proof.
  intros n. pose proof (lin_internal n) as Hi. unfold parseDefaultDecl.
  lstep; [lauto|]. lstep; [lauto|]. apply lin_consume; known_length; cbv iota.
  all: repeat first [lstep | (eapply lin_bind0; [lia|apply lin_wrap, Hi|intros ? _]) | (eapply lin_bind0; [lia|mon|intros ? _])].
Qed.
Lemma lin_addDefault : forall e a v, lin 0 0 T (addAttributeDefault S H e a v).
Proof.
  intros e a v. unfold addAttributeDefault. lstep. destruct (lookupSpecial _ _); [lauto|]. destruct (prefix_local a) as [p l].
  intros s o s' Hr. destruct (h_createAttr H (hs s) l p v) as [h' r]. destruct r; inversion Hr; subst; (split; [exists []; reflexivity|]);
    try (left; unfold weight; cbn; lia); split; try exact I; left; unfold weight; cbn; lia.
Qed.
Lemma lin_attlistLoop : forall n e, lin 0 0 T (attlistLoop E S H n e).
Proof.
  induction n; intros e; cbn [attlistLoop]; [lauto|]. pose proof (lin_parseDefaultDecl n) as Hd. pose proof lin_addDefault as Ha.
  eapply lin_bind0; [lia|mon|intros c _]. destruct (_ =? 62); [lauto|]. lstep. lstep. lstep. destruct a0 as [typ enum].
  lstep. lstep. destruct a0 as [def dv].
  repeat first [apply IHn | lstep | (eapply lin_weak; [apply Ha|lia|lia|auto]) | (eapply lin_bind0; [lia|mon|intros ? _])].
  all: eapply lin_weak; [apply IHn|lia|lia|auto].
Qed.
Lemma lin_parseAttlist : forall n, lin 0 0 T (parseAttributeListDecl E S H n).
Proof.
  intros n. pose proof (lin_attlistLoop n) as Hl. unfold parseAttributeListDecl.
  repeat first [lstep | (eapply lin_weak; [apply Hl|lia|lia|auto])].
Qed.
Lemma lin_parseMarkupDecl : forall n, lin 0 0 T (parseMarkupDecl E S H n).
Proof.
  intros n. pose proof (lin_parseElementDecl n). pose proof lin_parseEntityDecl. pose proof (lin_parseAttlist n). pose proof lin_parseComment.
  pose proof lin_parsePI. pose proof lin_parsePEReference. unfold parseMarkupDecl.
  apply (lin_look _ 0 0 T (fun s => _)). intros s. cbv zeta. lauto.
Qed.
Lemma lin_subsetLoop : forall n, lin 0 0 T (subsetLoop E S H n).
Proof.
  induction n; cbn [subsetLoop]; [lauto|]. pose proof (lin_parseMarkupDecl n). pose proof lin_parsePEReference.
  lstep. eapply lin_bind0; [lia|mon|intros ? _]. lauto.
Qed.
Lemma lin_parseInternalSubset : forall n, lin 0 0 T (parseInternalSubset E S H n).
Proof.
  intros n. pose proof (lin_subsetLoop n). unfold parseInternalSubset. repeat first [lstep | (eapply lin_bind0; [lia|mon|intros ? _])].
Qed.
Lemma lin_parseDTD : forall n, lin 0 0 T (parseDTD E S H n).
Proof.
  intros n. pose proof (lin_parseInternalSubset n). pose proof (lin_parseMisc n). unfold parseDTD. lstep.
  eapply lin_bind with (c1 := 1) (d1 := 0); [apply lin_wrap, lin_parseDocTypeDecl|intros ? _|lia]. lauto.
Qed.
Lemma lin_switch : forall d, lin 0 0 T (switchEncoding E S d).
Proof.
  intros d s o s' Hr. unfold switchEncoding in Hr. destruct (Load _ _) as [c|]; inversion Hr; subst; (split; [exists []; reflexivity|]).
  - split; [exact I|left]. unfold weight. cbn [set_inp inp tr]. pose proof (DL c (inp s)). lia.
  - left; lia.
Qed.
Lemma lin_parseDocument : forall n, lin (-3) 3 T (parseDocument E S H n).
Proof.
  intros n. pose proof lin_switch as Hs. pose proof (lin_parseMisc n) as Hm. pose proof (lin_parseDTD n) as Hd.
  pose proof (lin_parseElement n _ (lin_parseContent n)) as He.
  unfold parseDocument. lstep. eapply lin_bind0 with (Q1 := T); [lia| |intros det _].
  { intros s o s' Hr. destruct (detectEncoding (inp s)) as [[enc rest]|] eqn:Hx; inversion Hr; subst; (split; [exists []; reflexivity|]); (split; [exact I|left]).
    - apply detect_suffix in Hx. apply suffix_length in Hx. unfold weight. cbn [set_inp inp tr]. lia.
    - lia. }
  lstep. lstep; [lauto|]. lstep. lstep. { lauto. }
  eapply lin_bind0; [lia|apply lin_wrap, Hs|intros ? _].
  repeat first [lstep | (eapply lin_bind0; [lia|mon|intros ? _])].
Qed.
Lemma Parse_linear : forall n h bytes o s, Parse E S H n h bytes = (o, s) ->
  match o with
  | Ret _ => (List.length (tr s) <= List.length bytes + 3)%nat \/ (EX /\ referred s)
  | _ => (List.length (tr s) <= List.length bytes + 3)%nat \/ EX
  end.
Proof.
  intros n h bytes o s Hr. unfold Parse in Hr. destruct (lin_parseDocument n _ _ _ Hr) as [_ Ho]. unfold weight in Ho. cbn [init inp tr List.length] in Ho.
  destruct o; try (destruct Ho; [left; lia|auto]). destruct Ho as [_ [Ho|Ho]]; auto. left; lia.
Qed.
End L.

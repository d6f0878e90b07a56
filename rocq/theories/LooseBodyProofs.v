(* Whatever is accepted after a document type declaration is in the grammar of
   LooseBody.v, and reported as it says. *)
From Coq Require Import Permutation.
From Verif Require Import Base Utf8 Utf8Proofs Encoding XmlSpec EscapeProofs Scan ScanProofs LexProofs Parser Effects TextProofs Complete Local Counter Loose LooseLex LooseProofs Content TermDtd Doctype DoctypeAttr
  Grammar LooseDtd LooseModel LooseSubset LooseBody LooseDtdDoc.
From Coq Require Import ZifyBool.
Local Open Scope Z_scope.

Section S.
Variable E : env.
Hypothesis OK : env_ok E.
Hypothesis NC : forall c, isLetter E c || isDigit E c = true -> xml_char c = true.
Hypothesis OV : forall n l, over E n l = [].
Variable S : Type.
Variable H : handler S.
Notation tells := (tells S).

(* ---- functions that leave the tables alone ---- *)
Definition kept (s s' : pst S) : Prop := attsSpecial s' = attsSpecial s /\ attsDefault s' = attsDefault s.
Definition held (s s' : pst S) : Prop := nsTab s' = nsTab s /\ nodeTab s' = nodeTab s /\ kept s s'.
Lemma held_refl : forall s, held s s. Proof. repeat split. Qed.
Lemma held_trans : forall s s1 s2, held s s1 -> held s1 s2 -> held s s2.
Proof. intros s s1 s2 (A & B & C & D) (A' & B' & C' & D'). repeat split; congruence. Qed.
Lemma kept_trans : forall s s1 s2, kept s s1 -> kept s1 s2 -> kept s s2.
Proof. intros s s1 s2 (C & D) (C' & D'). split; congruence. Qed.
Definition still {A} (m : M S A) : Prop := forall s a s', m s = (Ret a, s') -> held s s'.
Lemma still_bind : forall A B (m : M S A) (f : A -> M S B), still m -> (forall a, still (f a)) -> still (bind S m f).
Proof. intros A B m f Hm Hf s b s' Hb. apply bind_inv in Hb as (a & s1 & H1 & Hb). eapply held_trans; [eapply Hm; eauto|eapply Hf; eauto]. Qed.
Lemma still_wrap : forall A (m : M S A), still m -> still (wrap S m). Proof. intros A m Hm s a s' Hw. apply wrap_inv in Hw. eauto. Qed.
Lemma still_lift : forall A (p : P A), still (lift S p). Proof. intros A p s a s' Hl. apply lift_inv in Hl as (l & _ & ->). repeat split. Qed.
Lemma still_raw : forall e, still (emit_raw S H e).
Proof. intros e s a s' Hm. unfold emit_raw in Hm. destruct (h_event H (hs s) (the_view S s) e) as [h r]. destruct r; inversion Hm; subst; repeat split; auto. Qed.
Lemma still_emit : forall e, still (emit S H e). Proof. intros e. apply still_wrap, still_raw. Qed.
Lemma still_ret : forall A (x : A), still (ret S x). Proof. intros A x s a s' Hm. inversion Hm; subst. apply held_refl. Qed.
Lemma still_mlift : forall A (x : outcome gerr A), still (mlift S x). Proof. intros A x s a s' Hm. unfold mlift in Hm. inversion Hm; subst. apply held_refl. Qed.
Lemma still_fail : forall A (e : gerr), still (fail S e : M S A). Proof. intros A e s a s' Hm. discriminate. Qed.
Lemma still_failw : forall A e, still (failw S e : M S A). Proof. intros A e s a s' Hm. discriminate. Qed.
Lemma still_get : forall A (f : pst S -> A), still (get S f). Proof. intros A f s a s' Hm. inversion Hm; subst. apply held_refl. Qed.
Lemma still_done : still (mdone S). Proof. intros s a s' Hm. inversion Hm; subst. apply held_refl. Qed.
Lemma still_query : forall n, still (queryEntity S H n).
Proof. intros n s a s' Hm. unfold queryEntity in Hm. destruct (h_getEntity H (hs s) (the_view S s) n) as [h [x err|]]; inversion Hm; subst; repeat split; auto. Qed.
Lemma still_docEntity : forall n, still (getEntity S H n).
Proof. intros n s a s' Hm. unfold getEntity in Hm. destruct (inSubset s =? 0); [inversion Hm; subst; apply held_refl|]. destruct (h_docEntity _ _ _); inversion Hm; subst; apply held_refl. Qed.
Lemma still_chunk : forall K c, still (parseBalancedChunk S H K c).
Proof.
  intros K c s a s' Hm. unfold parseBalancedChunk in Hm. cbv zeta in Hm. destruct (40 <? depth s + 1); [discriminate|].
  match type of Hm with (let '(_, _) := ?k in _) = _ => destruct k as [o s1] end. inversion Hm; subst. repeat split; auto.
Qed.
Create HintDb still.
Hint Resolve still_bind still_wrap still_lift still_raw still_emit still_ret still_mlift still_fail still_failw still_get still_done still_query still_docEntity still_chunk : still.
Ltac st := repeat first [progress intros | progress cbv zeta | apply still_bind | match goal with |- still (if ?b then _ else _) => destruct b | |- still (match ?x with _ => _ end) => destruct x end | solve [auto with still]
  | unfold mpeek, mpeekn, madvance, mskip, mconsume, mhas; solve [auto with still]].
Lemma still_pan : forall A, still (pan S : M S A). Proof. intros A s a s' Hm. discriminate. Qed.
Hint Resolve still_pan : still.
Lemma still_entityRef : still (parseEntityRef E S H). Proof. unfold parseEntityRef. st. Qed.
Hint Resolve still_entityRef : still.
Lemma still_value : forall n q nz b sp k, still (attrValueLoop E S H n q nz b sp k).
Proof. induction n as [|n IH]; intros q nz b sp k; cbn [attrValueLoop]; [intros s a s' Hm; discriminate|]. st. Qed.
Hint Resolve still_value : still.
Lemma still_always : forall A (m : M S A) p, still m -> still (always S m p).
Proof.
  intros A m p Hm s a s' Ha. unfold always in Ha. destruct (m s) as [o s1] eqn:Hs. destruct (p (inp s1)) as [o2 l]. destruct o; inversion Ha; subst; apply Hm in Hs; exact Hs.
Qed.
Lemma still_attributeValue : forall n nz, still (parseAttributeValue E S H n nz).
Proof. intros n nz. unfold parseAttributeValue, parseAttributeValueInternal. st. apply still_always. auto with still. Qed.
Hint Resolve still_attributeValue : still.
Lemma still_attribute : forall n el, still (parseAttribute E S H n el).
Proof. intros n el. unfold parseAttribute. st. Qed.
Lemma still_pi : still (parsePI E S H). Proof. unfold parsePI. st. Qed.
Lemma still_comment : still (parseComment E S H). Proof. unfold parseComment. st. Qed.
Lemma still_text : forall cd, still (parseCharData E S H cd).
Proof. intros cd. unfold parseCharData. st. unfold areBlanks. intros s b s' Hm. inversion Hm; subst. apply held_refl. Qed.
Hint Resolve still_attribute still_pi still_comment still_text : still.
Lemma still_cdata : still (parseCDSect E S H). Proof. unfold parseCDSect. st. Qed.
Lemma still_reference : forall K, still (parseReference E S H K). Proof. intros K. unfold parseReference. st. Qed.
Hint Resolve still_cdata still_reference : still.
Lemma still_misc : forall n, still (parseMisc E S H n).
Proof. induction n as [|n IH]; cbn [parseMisc]; [intros s a s' Hm; discriminate|]. apply still_bind; [st|]. intros d. destruct d; [st|]. intros s b s' Hm. cbv zeta in Hm. revert Hm. generalize (inp s) at 1 2 3. intros l. revert s b s'. fold (still (if has_prefix (s_ "<?") l then bind S (wrap S (parsePI E S H)) (fun _ => parseMisc E S H n) else if has_prefix (s_ "<!--") l then bind S (wrap S (parseComment E S H)) (fun _ => parseMisc E S H n) else if isBlankCh (peek E l) then bind S (mskip S) (fun _ => parseMisc E S H n) else ret S tt)). st. Qed.

(* ---- values ---- *)
Definition meets (nz : bool) (b : str) (sp : bool) (k : Z) (v : str) (k' : Z) (w : str) : Prop :=
  if nz then words v = words (b ++ w) /\ k <= k' /\ (tidy b sp -> k' = k -> exists ws, Forall isWord ws /\ v = join ws) else v = b ++ w.
Lemma meets_ref : forall nz b sp k v k' w x, meets nz (b ++ x) false (k + 1) v k' w -> meets nz b sp k v k' (x ++ w).
Proof.
  intros [] b sp k v k' w x Hm; unfold meets in *; [|rewrite Hm, <- app_assoc; reflexivity]. destruct Hm as (A & B & C). rewrite app_assoc. split; [auto|]. split; [lia|]. intros _ ->. lia.
Qed.
Lemma meets_char : forall nz b sp k v k' w x, isWord x -> meets nz (b ++ x) false k v k' w -> meets nz b sp k v k' (x ++ w).
Proof.
  intros [] b sp k v k' w x Hx Hm; unfold meets in *; [|rewrite Hm, <- app_assoc; reflexivity]. destruct Hm as (A & B & C). rewrite app_assoc. split; [auto|]. split; [lia|]. intros Ht He. apply C; auto. eapply tidy_word; eauto.
Qed.
Definition ends (nz : bool) (b : str) (sp : bool) : Prop := nz = true -> sp = true -> exists b0, b = b0 ++ [32].
Lemma meets_blank : forall nz b sp k v k' w, ends nz b sp ->
  let keep := negb (match b with [] => true | _ => false end) || negb nz in
  ends nz (if keep && (negb nz || negb sp) then b ++ [32] else b) (if keep then true else sp) /\
  (meets nz (if keep && (negb nz || negb sp) then b ++ [32] else b) (if keep then true else sp) k v k' w -> meets nz b sp k v k' (32 :: w)).
Proof.
  intros [] b sp k v k' w Hsp keep; subst keep; unfold ends, meets in *; cbn [negb].
  2:{ rewrite orb_true_r. cbn [andb orb]. split; [discriminate|]. intros ->. rewrite <- app_assoc. reflexivity. }
  rewrite orb_false_r. cbn [orb]. destruct b as [|c b]; cbn [negb andb].
  { split; [auto|]. intros (A & B & C). split; [rewrite A; reflexivity|]. auto. }
  set (y := c :: b) in *. assert (Hy : y <> []) by discriminate. clearbody y. clear c b. destruct sp; cbn [negb].
  - split; [auto|]. intros (A & B & C). destruct (Hsp eq_refl eq_refl) as (b1 & ->). split; [|auto]. rewrite A, words_trail, words_split. f_equal.
    rewrite <- (app_nil_r (b1 ++ [32])), words_trail. cbn. rewrite app_nil_r. reflexivity.
  - split; [eauto|]. intros (A & B & C). split; [rewrite A, <- app_assoc; reflexivity|]. split; [auto|]. intros Ht He. apply C; auto. apply tidy_blank; auto.
Qed.
Lemma meets_end : forall nz b sp k v k' (s s' : pst S), ends nz b sp -> (if sp && nz then bind S (mlift S (rtrim b)) (fun v => ret S (v, k)) else ret S (b, k)) s = (Ret (v, k'), s') ->
  s' = s /\ meets nz b sp k v k' [].
Proof.
  intros nz b sp k v k' s s' Hsp Hm. unfold meets, ends in *. rewrite app_nil_r. destruct nz; [|rewrite andb_false_r in Hm; inversion Hm; subst; auto].
  rewrite andb_true_r in Hm. destruct sp.
  - destruct (Hsp eq_refl eq_refl) as (b0 & ->). destruct (rtrim_words b0) as (w & Hw1 & Hw2). apply bind_inv in Hm as (x & s1 & H1 & Hm). unfold mlift in H1. rewrite Hw1 in H1. inversion H1; subst x s1. inversion Hm; subst.
    split; [auto|]. split; [rewrite <- (app_nil_r (b0 ++ [32])), words_trail; cbn; rewrite app_nil_r; auto|]. split; [lia|]. intros (ws & Hws & Hc) _. destruct Hc as [[Hc _]|(_ & Hne & Heq)]; [discriminate|].
    exists ws. split; [auto|]. rewrite Heq, rtrim_tidy in Hw1 by auto. inversion Hw1; auto.
  - inversion Hm; subst. split; [auto|]. split; [auto|]. split; [lia|]. intros (ws & Hws & Hc) _. destruct Hc as [[_ Hc]|(Hc & _)]; [|discriminate]. eauto.
Qed.
Ltac also T N := match type of T with LooseSubset.tells _ ?s ?t1 ?e1 ?s1 => match type of N with LooseSubset.tells _ s1 ?t2 ?e2 ?s2 =>
  let T' := fresh "T" in pose proof (tells_trans S s t1 e1 s1 t2 e2 s2 T N) as T'; clear T N; rename T' into T; cbn [app] in T end end.
Ltac nxt Hm a s1 H1 := apply bind_inv in Hm as (a & s1 & H1 & Hm).
Ltac pk Hm := let c := fresh "c" in let s1 := fresh "s1" in let H1 := fresh "H1" in apply bind_inv in Hm as (c & s1 & H1 & Hm); apply mpeek_form in H1 as [-> ->].
Lemma value_tells : forall n q nz b sp k s v k' s', ends nz b sp -> attrValueLoop E S H n q nz b sp k s = (Ret (v, k'), s') ->
  inp s' = [] \/ exists lit w, tells s lit [] s' /\ dlit E (truthful H) q lit w /\ stopped q (inp s') /\ meets nz b sp k v k' w.
Proof.
  induction n as [|n IH]; intros q nz b sp k s v k' s' Hsp Hm; cbn [attrValueLoop] in Hm; [discriminate|]. pk Hm.
  destruct ((peek E (inp s) =? q) || negb (isChar (peek E (inp s))) || (peek E (inp s) =? 60)) eqn:Hstop.
  { right. exists [], []. apply meets_end in Hm as [-> Hm]; [|auto]. split; [apply tells_refl|]. split; [constructor|]. split; [|auto].
    unfold stopped. destruct (inp s) as [|c t]; [auto|]. cbn [peek hd] in Hstop. rewrite legal_is. destruct (isChar c); [|auto]. destruct (Z.eqb_spec c q); [auto|]. destruct (Z.eqb_spec c 60); [auto|discriminate]. }
  apply orb_false_iff in Hstop as [Hstop H60]. apply orb_false_iff in Hstop as [Hq Hch]. apply negb_false_iff in Hch.
  destruct (peek_legal E OK _ Hch) as (c & t & Ht & Hl). rewrite Ht in Hq, H60, Hm. cbn [peek hd] in Hq, H60, Hm.
  destruct (Z.eqb_spec c 38) as [->|H38].
  - nxt Hm c2 s1 H1. apply mpeekn_form in H1 as [-> ->]. match type of Hm with (if ?b then _ else _) _ = _ => destruct b end.
    + nxt Hm x s1 H1. apply wrap_inv in H1. apply lift_inv in H1 as (l1 & H1 & ->). rewrite Ht in H1. apply (charref_form E OK NC OV) in H1.
      apply IH in Hm as [Hm|(lit & w & T & Hlit & Hst & Hv)]; [auto| |discriminate]. destruct H1 as [->|(t' & Ht' & Hr)].
      { left. destruct T as (T & _). cbn [inp set_inp] in T. symmetry in T. apply app_eq_nil in T. apply T. }
      inversion Ht'; subst t'. clear Ht'. right. apply lref_local in Hr as (w1 & -> & Hr). exists (38 :: w1 ++ lit), ((if x =? 38 then s_ "&#38;" else utf8 [x]) ++ w).
      assert (N : tells s (38 :: w1) [] (set_inp S l1 s)) by (apply tells_read; exact Ht). also N T. split; [exact N|]. split; [econstructor; [apply Hr|exact Hlit]|]. split; [auto|].
      apply meets_ref. unfold utf8. cbn [flat_map]. rewrite app_nil_r. auto.
    + nxt Hm e s1 H1. apply wrap_inv, (entityRef_tells E OK NC OV) in H1 as (nm & z & N & Hn & Hz & He). apply IH in Hm as [Hm|(lit & w & T & Hlit & Hst & Hv)]; [auto| |discriminate]. right. also N T.
      eexists _, _. split; [exact N|]. match goal with |- ?A /\ ?B /\ ?C => enough (X : A /\ C) by tauto end. split; [|apply meets_ref; exact Hv]. destruct (predefined (utf8 nm)) as [cont|] eqn:Hp.
      * destruct He as [-> ->]. rewrite Z.eqb_refl. destruct (predefined_names nm cont Hp) as (x & -> & N1 & N2 & N3); [apply Hn|].
        match goal with |- dlit _ _ _ ?A (?B ++ _) => assert (Q1 : A = 38 :: (nm ++ z ++ [59]) ++ lit) by (repeat (rewrite <- ?app_assoc; cbn [app]); reflexivity);
          assert (Q2 : B = if x =? 38 then s_ "&#38;" else utf8 [x]) end.
        { cbn [str_eqb]. rewrite andb_true_r. destruct (x =? 38); [auto|]. unfold predefined in Hp.
          repeat match type of Hp with (if ?b then _ else _) = _ => destruct b; [inversion Hp; reflexivity|] end. discriminate. }
        try rewrite Q1. rewrite Q2. apply dl_cref with (t' := lit); [|auto]. rewrite <- !app_assoc. cbn [app].
        destruct Hz as [->| ->]; [apply lr_plain; auto; apply N3|]. cbn [app]. apply lr_nul; [apply N3|auto|exact I].
      * match goal with |- dlit _ _ _ ?A (?B ++ _) => assert (X : dlit E (truthful H) q ([38] ++ nm ++ z ++ [59] ++ lit) (B ++ w)) end.
        { apply dl_ref; auto; [eapply predefined_kept; eauto|]. intros Tr. destruct (He Tr) as [-> He2]. destruct (Z.eqb_spec (e_type e) InternalPredefinedEntity); [contradiction|auto]. }
        cbn [app] in X. rewrite <- !app_assoc. exact X.
  - assert (N : forall u s1, madvance E S 1 s = (Ret u, s1) -> tells s [c] [] s1).
    { intros u s1 H1. apply madvance_form in H1. rewrite Ht, advance_1 in H1. subst s1. apply tells_read. auto. }
    cbv zeta in Hm. match type of Hm with (if ?b then _ else _) _ = _ => destruct b eqn:Hb end; nxt Hm u s1 H1; apply N in H1.
    + apply IH in Hm as [Hm|(lit & w & T & Hlit & Hst & Hv)]; [auto| |apply (meets_blank nz b sp k v k' []); auto]. right. also H1 T. eexists _, _. split; [exact H1|].
      split; [apply (dl_blank E _ q c lit w); auto; unfold blank; lia|]. split; [auto|]. apply meets_blank; auto.
    + apply IH in Hm as [Hm|(lit & w & T & Hlit & Hst & Hv)]; [auto| |discriminate]. right. also H1 T. eexists _, _. split; [exact H1|].
      split; [apply (dl_char E _ q c lit w); auto; unfold blank; lia|]. split; [auto|]. unfold utf8. cbn [flat_map]. rewrite app_nil_r. apply meets_char; [|auto]. apply encode_word. unfold blank. lia.
Qed.

(* ---- attributes, with the tables SP and DF the declarations have left ---- *)
Variable tok : str -> str -> bool.
Variable more : str -> list attr.
Variable SP : list (str * Z).
Variable DF : list (str * str * (str * str * str)).
Hypothesis TOK : forall el a, tok el a = match lookupSpecial SP (special_key el a) with Some t => negb (t =? AttrInvalid) | None => false end.
Hypothesis MORE : forall nm, Permutation (map (fun x : str * str * str => let '(l, p, v) := x in ADefault l p v) (defaultsOf nm DF)) (more nm).
Definition kp (s : pst S) : Prop := attsSpecial s = SP /\ attsDefault s = DF.
Lemma kp_held : forall s s', kp s -> held s s' -> kp s'. Proof. intros s s' [A B] (_ & _ & C & D). split; congruence. Qed.

Lemma pvalue_tells : forall n nz s v k s', parseAttributeValue E S H n nz s = (Ret (v, k), s') ->
  open_end (inp s') \/ exists w v0, tells s w [] s' /\ bvalue E (truthful H) w v0 /\ meets nz [] false 0 v k v0.
Proof.
  intros n nz s v k s' Hm. unfold parseAttributeValue in Hm. pk Hm. destruct ((peek E (inp s) =? 34) || (peek E (inp s) =? 39)) eqn:Hq.
  - assert (Hqs : exists q t, (q = 34 \/ q = 39) /\ inp s = q :: t).
    { apply orb_true_iff in Hq as [Hq|Hq]; apply Z.eqb_eq in Hq; apply (peek_is E OK NC) in Hq as [t Hq]; try lia; eauto. }
    destruct Hqs as (q & t & Hqq & Ht). rewrite Ht in Hm. cbn [peek hd] in Hm. nxt Hm u s1 H1.
    assert (T : tells s [q] [] s1) by (apply madvance_form in H1; rewrite Ht, advance_1 in H1; subst s1; apply tells_read; auto). clear H1.
    unfold always, parseAttributeValueInternal in Hm. destruct (attrValueLoop E S H n q nz [] false 0 s1) as [[[v1 k1]|e| |] s2] eqn:Hl; inversion Hm; subst. clear Hm.
    apply value_tells in Hl; [|intros _ X; discriminate]. cbn [inp set_inp snd] in *.
    assert (Hnil : inp s2 = [] -> open_end (if peek E (inp s2) =? q then advance E 1 (inp s2) else inp s2)).
    { intros ->. destruct (ok_eofr E OK) as [Q|Q]; cbn [peek hd]; rewrite Q; destruct (Z.eqb_spec 0 q); destruct (Z.eqb_spec RuneError q); try (unfold RuneError in *; lia); exact I. }
    destruct Hl as [Hl|(lit & w & N & Hlit & Hst & Hv)]; [left; auto|]. destruct (inp s2) as [|c r] eqn:Hi2; [left; auto|].
    cbn [peek hd]. destruct (Z.eqb_spec c q) as [->|Hcq]; [|left; cbn [stopped] in Hst; destruct Hst as [|]; [tauto|assumption]].
    rewrite advance_1. right. also T N. assert (N : tells s2 [q] [] (set_inp S r s2)) by (apply tells_read; auto). also T N.
    exists ([q] ++ lit ++ [q]), w. split; [exact T|]. split; [apply bv_literal; auto|auto].
  - inversion Hm; subst. right. exists [], []. split; [apply tells_refl|]. split; [constructor|]. unfold meets. destruct nz; [|reflexivity]. split; [reflexivity|]. split; [lia|]. intros _ _. exists []. split; [constructor|reflexivity].
Qed.
Lemma attribute_tells : forall n nm s l p v s', kp s -> parseAttribute E S H n nm s = (Ret (l, p, v), s') ->
  open_end (inp s') \/ exists w p' l', tells s w [] s' /\ battr E (truthful H) tok nm w p' l' v /\ l = utf8 l' /\ p = utf8 p'.
Proof.
  intros n nm s l p v s' Hk Hm. unfold parseAttribute in Hm. apply bind_inv in Hm as ([l0 p0] & s1 & H1 & Hm).
  apply lift_inv in H1 as (l1 & H1 & ->). apply pwrap_inv in H1. apply (qname_form E OK NC OV) in H1 as (q & p' & l' & Hi & Hq & -> & -> & H58).
  nxt Hm sp s1 H1. inversion H1; subst sp s1. clear H1. cbn [attsSpecial set_inp] in Hm. rewrite (proj1 Hk) in Hm. rewrite <- TOK in Hm. set (nz := tok nm (utf8 l')) in *.
  assert (T : tells s q [] (set_inp S l1 s)) by (apply tells_read; auto).
  nxt Hm b1 s1 H1. apply mskip_form in H1 as (e1 & He1 & Hb1 & Hs1 & Hh1). assert (N : tells (set_inp S l1 s) e1 [] s1) by (rewrite Hs1; apply tells_read; auto). also T N.
  nxt Hm u s2 H1. nxt Hm b2 s3 H3. pose proof H3 as H3'. apply mskip_form in H3' as (e2 & He2 & Hb2 & Hs3 & Hh2).
  apply bind_inv in Hm as ([v1 k1] & s4 & H4 & Hm). apply wrap_inv, pvalue_tells in H4. cbn [snd fst] in Hm.
  apply bind_inv in Hm as (v2 & s5 & H5 & Hm). inversion Hm; subst. clear Hm.
  assert (Hs5 : s' = s4). { match type of H5 with (if ?b then _ else _) _ = _ => destruct b end; [unfold mlift in H5|]; inversion H5; auto. } subst s'.
  destruct H4 as [|(w & v0 & N4 & Hv & Hmeet)]; [auto|]. destruct (inp s1) as [|c t] eqn:Hi1.
  { left. apply madvance_form in H1. rewrite Hi1 in H1. unfold advance in H1. cbn [List.length Nat.leb] in H1. rewrite OV in H1. rewrite H1 in He2. cbn [inp set_inp] in He2. symmetry in He2. apply app_eq_nil in He2 as [_ He2].
    destruct N4 as (N4 & _). rewrite He2 in N4. symmetry in N4. apply app_eq_nil in N4 as [_ ->]. exact I. }
  right. assert (N : tells s1 [c] [] s2) by (apply madvance_form in H1; rewrite Hi1, advance_1 in H1; subst s2; apply tells_read; auto). also T N.
  assert (N : tells s2 e2 [] s3) by (rewrite Hs3; apply tells_read; auto). also T N. also T N4. exists (q ++ e1 ++ [c] ++ e2 ++ w), p', l'.
  split; [rewrite <- !app_assoc in T; exact T|]. split; [|auto].
  assert (Hval : v = if nz then spaced (tokens v0) else v0).
  { rewrite tokens_words, spaced_join. destruct nz; cbn [andb] in H5; [|inversion H5; subst; exact Hmeet]. destruct Hmeet as (A & B & C). cbn [app] in A. destruct (Z.ltb_spec 0 k1) as [Hlt|Hge].
    - unfold mlift in H5. inversion H5 as [X]. apply normal_tokens in X. rewrite X, tokens_words, spaced_join, A. reflexivity.
    - inversion H5; subst v1. destruct C as (ws & Hws & C); [exists []; split; [constructor|left; auto]|lia|]. rewrite C in A |- *. rewrite words_join in A by auto. rewrite A. reflexivity. }
  rewrite Hval. subst nz. econstructor; eauto. right. destruct e1 as [|x e1].
  - cbn [app] in He1. cbn [inp set_inp] in He1. rewrite He1 in H58. split; [|intros _; split; intro X; apply H58; exact X]. cbn in Hh1. exact Hh1.
  - split; [cbn in Hh1; exact Hh1|discriminate].
Qed.

Notation battr := (battr E (truthful H) tok).
Notation batts := (batts E (truthful H) tok).
Lemma battr_head : forall el w p l v, battr el w p l v -> exists c r, w = c :: r /\ c <> 62 /\ c <> 47 /\ c <> 60 /\ legal c = true /\ blank c = false.
Proof. intros el w p l v Hw. inversion Hw; subst. match goal with H : lqname _ _ _ _ _ |- _ => destruct (lqname_head E OK NC OV _ _ _ H) as (x & r & -> & Hx) end. exists x. eexists. split; [cbn [app]; reflexivity|auto]. Qed.
Lemma battr_legals : forall el w p l v, battr el w p l v -> legals p /\ legals l.
Proof. intros el w p l v Hw. inversion Hw; subst. eapply lqname_legals; eauto. Qed.
Lemma batts_head : forall el tab t a d tab', batts el tab t a d tab' ->
  (t = [] /\ a = [] /\ d = [] /\ tab' = tab) \/ exists c r, t = c :: r /\ c <> 62 /\ c <> 47 /\ c <> 60.
Proof.
  intros el tab t a d tab' Ht. inversion Ht; subst;
    try (match goal with H : LooseBody.battr _ _ _ _ _ _ _ _ |- _ => destruct (battr_head _ _ _ _ _ H) as (c1 & r1 & -> & X1 & X2 & X3 & _) end;
         right; match goal with H : blanks ?b |- context [?b ++ ?w] => eapply (blanks_head E NC b w); [exact H|cbn [app]; reflexivity|auto] end).
  destruct t as [|c t]; [left; auto|right]. match goal with H : blanks _ |- _ => inversion H; subst end. exists c, t. split; [auto|]. apply (blank_not E NC); auto.
Qed.
Lemma batts_blank : forall b el tab t a d tab', blanks b -> batts el tab t a d tab' -> batts el tab (b ++ t) a d tab'.
Proof.
  intros b el tab t a d tab' Hb Ht. inversion Ht; subst; try rewrite app_assoc.
  - apply bt_end. apply blanks_app; auto.
  - apply bt_attr; auto. apply blanks_app; auto.
  - apply bt_decl; auto. apply blanks_app; auto.
  - apply bt_xml; auto. apply blanks_app; auto.
  - apply bt_default; auto. apply blanks_app; auto.
  - apply bt_listed; auto. apply blanks_app; auto.
Qed.
(* the end of a tag *)
Definition closes (e l : list Z) : Prop := e = [62] \/ (e = [] /\ exists r, l = s_ "/>" ++ r).
Lemma batts_now : forall el tab t a d tab' e l, batts el tab t a d tab' -> closes e l ->
  peek E (t ++ e ++ l) = 62 \/ has_prefix (s_ "/>") (t ++ e ++ l) = true -> t = [] /\ a = [] /\ d = [] /\ tab' = tab.
Proof.
  intros el tab t a d tab' e l Ht Hl He. apply batts_head in Ht as [Ht|(c & r & -> & X1 & X2 & X3)]; [auto|exfalso].
  cbn [app] in He. destruct He as [He|He]; [cbn [peek hd] in He; auto|]. cbn in He. lia.
Qed.
Definition attrs_read (local : str) (attrs : list attr) (k : nat) (s : pst S) (attrs' : list attr) (k' : nat) (s' : pst S) : Prop :=
  exists t a d e, batts local (rev (nsTab s)) t a d (rev (nsTab s')) /\ attrs' = attrs ++ a /\ k' = (k + List.length d)%nat /\
    tells s (t ++ e) [] s' /\ closes e (inp s') /\ nodeTab s' = nodeTab s /\ kp s'.
Lemma attrLoop_tells : forall n local attrs k s attrs' k' s', kp s -> attrLoop E S H n local attrs k s = (Ret (attrs', k'), s') -> attrs_read local attrs k s attrs' k' s'.
Proof.
  induction n as [|n IH]; intros local attrs k s attrs' k' s' Hc Hm; cbn [attrLoop] in Hm; [discriminate|]. unfold attrs_read.
  nxt Hm b s1 H1. apply mskip_form in H1 as (w & Hw & Hb & Hs1 & Hh).
  assert (T : tells s w [] s1) by (rewrite Hs1; apply tells_read; auto). assert (N1 : nsTab s1 = nsTab s) by (rewrite Hs1; auto). assert (D1 : nodeTab s1 = nodeTab s) by (rewrite Hs1; auto).
  assert (K1 : kp s1) by (rewrite Hs1; exact Hc). clear Hs1 Hh Hw. pk Hm. rewrite <- N1, <- D1. clear N1 D1.
  destruct (Z.eqb_spec (peek E (inp s1)) 62) as [H62|H62].
  { apply (peek_is E OK NC) in H62 as [r Hr]; [|lia]. nxt Hm u s2 H1. apply madvance_form in H1. rewrite Hr, advance_1 in H1. subst s2. inversion Hm; subst. exists w, [], [], [62].
    rewrite app_nil_r, Nat.add_0_r. split; [apply bt_end; auto|]. do 2 (split; [auto|]). assert (N : tells s1 [62] [] (set_inp S r s1)) by (apply tells_read; auto). also T N. split; [exact T|]. split; [left; auto|]. split; [auto|exact K1]. }
  nxt Hm c2 s2 H2. apply mpeekn_form in H2 as [-> ->].
  destruct ((peek E (inp s1) =? 47) && (peekn E 2 (inp s1) =? 62)) eqn:Hsl.
  { apply andb_true_iff in Hsl as [Hs1 Hs2]. apply Z.eqb_eq in Hs1, Hs2. apply (peek_is E OK NC) in Hs1 as [r Hr]; [|lia]. rewrite Hr in Hs2.
    assert (Hr2 : exists r', r = 62 :: r').
    { destruct r as [|y r]; [|exists r]. - exfalso. cbn in Hs2. destruct (ok_eofr E OK) as [Q|Q]; rewrite Q in Hs2; discriminate. - cbn in Hs2. congruence. }
    destruct Hr2 as (r' & ->). inversion Hm; subst. exists w, [], [], [].
    rewrite !app_nil_r, Nat.add_0_r. split; [apply bt_end; auto|]. do 2 (split; [auto|]). split; [exact T|]. split; [right; split; [auto|]; exists r'; exact Hr|]. auto. }
  apply bind_inv in Hm as ([[nm pr] v] & s2 & H1 & Hm). apply wrap_inv in H1. pose proof (still_attribute _ _ _ _ _ H1) as Hh. apply attribute_tells in H1; [|exact K1].
  assert (K2 : kp s2) by (eapply kp_held; eauto). destruct Hh as (N2 & D2 & _). rewrite <- N2, <- D2. clear N2 D2 K1.
  assert (Hafter : forall s3 b s4, inp s3 = inp s2 -> afterNSDecl E S s3 = (Ret b, s4) -> ~ open_end (inp s2)).
  { intros s3 b0 s4 <- Hx Ho. apply (afterNSDecl_form E OK) in Hx. destruct Hx as [(_ & _ & [Hx|Hx])|(_ & wb & Hx & Hwb & Hne & _)].
    - apply (peek_is E OK NC) in Hx as [r Hr]; [|lia]. rewrite Hr in Ho. destruct Ho; discriminate.
    - destruct (inp s3) as [|c r]; [discriminate|]. assert (Hc47 : c = 47) by (cbn in Hx; lia). rewrite Hc47 in Ho. cbn [open_end] in Ho. destruct Ho; discriminate.
    - destruct wb as [|c wb]; [auto|]. rewrite Hx in Ho. cbn [app open_end] in Ho. inversion Hwb; subst. unfold blank in *. unfold legal, xml_char in Ho. lia. }
  destruct (str_eqb nm s_xmlns && str_eqb pr []) eqn:Hd.
  { apply andb_true_iff in Hd as [Hx Hp]. destruct (str_eqb_spec nm s_xmlns) as [->|]; [|discriminate]. destruct (str_eqb_spec pr []) as [->|]; [|discriminate]. clear Hx Hp.
    nxt Hm u s3 H2. assert (Hs3 : s3 = set_nsTab S (pushNS (nsTab s2) [] v) s2) by (inversion H2; auto). clear H2.
    assert (N : tells s2 [] [] s3) by (rewrite Hs3; repeat split; auto). assert (K3 : kp s3) by (rewrite Hs3; exact K2). assert (P3 : rev (nsTab s3) = push (rev (nsTab s2)) [] v) by (rewrite Hs3; cbn [nsTab set_nsTab]; apply push_is).
    assert (D3 : nodeTab s3 = nodeTab s2) by (rewrite Hs3; auto). assert (I3 : inp s3 = inp s2) by (rewrite Hs3; auto). clear Hs3.
    nxt Hm ct s4 H2. destruct H1 as [H1|(wa & p' & l' & N1 & Ha & Hl & Hp)]; [exfalso; eapply Hafter; eauto|]. destruct (battr_legals _ _ _ _ _ Ha) as [Lp Ll].
    symmetry in Hl, Hp. apply utf8_is in Hl; [|auto]. apply utf8_is in Hp; [|auto]. change (runes_of s_xmlns) with (s_ "xmlns") in Hl. change (runes_of []) with (@nil Z) in Hp. subst p' l'.
    also T N1. also T N. rewrite app_nil_r in T.
    apply (afterNSDecl_form E OK) in H2. destruct H2 as [(-> & -> & He)|(-> & wb & Hwb & Hbb & Hne & Hs1)].
    - apply IH in Hm; [|exact K3]. destruct Hm as (t & a & d & e & Ht & -> & -> & N & Hcl & Hnd & Hkp). pose proof N as (Ni & _). rewrite Ni, <- app_assoc in He.
      destruct (batts_now _ _ _ _ _ _ _ _ Ht Hcl He) as (-> & -> & -> & Htab). exists (w ++ wa), [], [([], v)], e.
      rewrite app_nil_r. rewrite P3 in Htab. rewrite Htab. split; [apply bt_default; auto|]. split; [auto|]. split; [cbn [List.length]; lia|].
      also T N. split; [exact T|]. split; [auto|]. split; [congruence|auto].
    - assert (N : tells s3 wb [] s4) by (rewrite Hs1; apply tells_read; auto). also T N. assert (K4 : kp s4) by (rewrite Hs1; exact K3). assert (P4 : rev (nsTab s4) = push (rev (nsTab s2)) [] v) by (rewrite Hs1; exact P3).
      assert (D4 : nodeTab s4 = nodeTab s2) by (rewrite Hs1; exact D3). apply IH in Hm; [|exact K4]. destruct Hm as (t & a & d & e & Ht & -> & -> & N & Hcl & Hnd & Hkp).
      destruct wb as [|c0 wb]; [congruence|]. exists (w ++ wa ++ c0 :: wb ++ t), (AAttr s_xmlns [] v :: a), (([], v) :: d), e.
      rewrite P4 in Ht. split; [|split; [rewrite <- app_assoc; reflexivity|split; [cbn [List.length]; lia|]]].
      + apply bt_listed; auto; [inversion Hbb; auto|]. apply (batts_blank (c0 :: wb)); auto.
      + also T N. split; [|split; [auto|split; [congruence|auto]]]. assert (Q : (w ++ wa ++ c0 :: wb ++ t) ++ e = ((w ++ wa) ++ c0 :: wb) ++ t ++ e) by (repeat (rewrite <- ?app_assoc; cbn [app]); reflexivity). rewrite Q. exact T. }
  assert (Hdecl : forall s3 k1, kp s3 -> nodeTab s3 = nodeTab s2 -> inp s3 = inp s2 ->
    bind S (afterNSDecl E S) (fun _ => attrLoop E S H n local attrs k1) s3 = (Ret (attrs', k'), s') ->
    exists t a d e, batts local (rev (nsTab s3)) t a d (rev (nsTab s')) /\ attrs' = attrs ++ a /\ k' = (k1 + List.length d)%nat /\
      tells s3 (t ++ e) [] s' /\ closes e (inp s') /\ nodeTab s' = nodeTab s2 /\ kp s' /\ spaced_off t /\ ~ open_end (inp s2)).
  { intros s3 k1 K3 D3 I3 Hx. nxt Hx ct s4 H2. pose proof H2 as Hno. apply Hafter in Hno; [|auto].
    apply (afterNSDecl_form E OK) in H2. destruct H2 as [(-> & -> & He)|(-> & wb & Hwb & Hbb & Hne & Hs1)].
    - apply IH in Hx; [|exact K3]. destruct Hx as (t & a & d & e & Ht & -> & -> & N & Hcl & Hnd & Hkp). pose proof N as (Ni & _). rewrite Ni, <- app_assoc in He.
      destruct (batts_now _ _ _ _ _ _ _ _ Ht Hcl He) as (-> & -> & -> & Htab). exists [], [], [], e. rewrite Htab.
      split; [apply bt_end; constructor|]. do 3 (split; [auto|]). split; [auto|]. split; [congruence|]. split; [auto|]. split; [left; auto|auto].
    - assert (N : tells s3 wb [] s4) by (rewrite Hs1; apply tells_read; auto). assert (K4 : kp s4) by (rewrite Hs1; exact K3). assert (P4 : nsTab s4 = nsTab s3) by (rewrite Hs1; auto).
      assert (D4 : nodeTab s4 = nodeTab s3) by (rewrite Hs1; auto). apply IH in Hx; [|exact K4]. destruct Hx as (t & a & d & e & Ht & -> & -> & N2 & Hcl & Hnd & Hkp). rewrite P4 in Ht.
      exists (wb ++ t), a, d, e. split; [apply batts_blank; auto|]. do 2 (split; [auto|]). also N N2. rewrite <- app_assoc. split; [auto|]. split; [auto|]. split; [congruence|]. split; [auto|]. split; [|auto].
      right. destruct wb; [congruence|]. inversion Hbb; auto. }
  destruct (str_eqb_spec pr s_xmlns) as [->|Hpr].
  - destruct (str_eqb_spec nm s_xml) as [->|Hxml].
    + destruct (str_eqb_spec v XMLNamespace) as [->|]; [|discriminate]. cbn [negb] in Hm.
      apply Hdecl in Hm; auto. destruct Hm as (t & a & d & e & Ht & -> & -> & N & Hcl & Hnd & Hkp & Hsp & Hno).
      destruct H1 as [H1|(wa & p' & l' & N1 & Ha & Hl & Hp)]; [tauto|]. destruct (battr_legals _ _ _ _ _ Ha) as [Lp Ll].
      symmetry in Hl, Hp. apply utf8_is in Hl; [|auto]. apply utf8_is in Hp; [|auto]. change (runes_of s_xmlns) with (s_ "xmlns") in Hp. change (runes_of s_xml) with (s_ "xml") in Hl. subst p' l'.
      also T N1. also T N. exists (w ++ wa ++ t), a, d, e. split; [apply bt_xml; auto|]. do 2 (split; [auto|]). rewrite <- !app_assoc in *. auto.
    + destruct (str_eqb_spec nm s_xmlns) as [|Hxn]; [discriminate|]. destruct (str_eqb_spec v XMLNSNamespace) as [|Hv1]; [discriminate|].
      destruct (str_eqb_spec v []) as [|Hv2]; [discriminate|]. destruct (urlOk E v) eqn:Hu; [|discriminate]. cbn [negb] in Hm.
      nxt Hm tab0 s3 H2. inversion H2; subst tab0 s3. clear H2.
      destruct (str_eqb_spec (lookupNS (nsTab s2) nm) []) as [Hlk|]; [|discriminate]. cbn [negb] in Hm.
      nxt Hm u s3 H2. assert (Hs3 : s3 = set_nsTab S (pushNS (nsTab s2) nm v) s2) by (inversion H2; auto). clear H2.
      assert (N3 : tells s2 [] [] s3) by (rewrite Hs3; repeat split; auto). assert (K3 : kp s3) by (rewrite Hs3; exact K2). assert (P3 : rev (nsTab s3) = push (rev (nsTab s2)) nm v) by (rewrite Hs3; cbn [nsTab set_nsTab]; apply push_is).
      assert (D3 : nodeTab s3 = nodeTab s2) by (rewrite Hs3; auto). assert (I3 : inp s3 = inp s2) by (rewrite Hs3; auto). clear Hs3.
      apply Hdecl in Hm; auto. destruct Hm as (t & a & d & e & Ht & -> & -> & N & Hcl & Hnd & Hkp & Hsp & Hno).
      destruct H1 as [H1|(wa & p' & l' & N1 & Ha & Hl & Hp)]; [tauto|]. destruct (battr_legals _ _ _ _ _ Ha) as [Lp Ll].
      symmetry in Hp. apply utf8_is in Hp; [|auto]. change (runes_of s_xmlns) with (s_ "xmlns") in Hp. subst p' nm. rewrite P3 in Ht. rewrite lookup_is in Hlk.
      also T N1. also T N3. rewrite app_nil_r in T. also T N.
      exists (w ++ wa ++ t), a, ((utf8 l', v) :: d), e. split; [|split; [auto|split; [cbn [List.length]; lia|rewrite <- !app_assoc in *; auto]]].
      apply bt_decl; auto; intros ->; auto.
  - destruct H1 as [H1|(wa & p' & l' & N1 & Ha & -> & ->)].
    { exfalso. eapply (attrLoop_open E OK NC OV); [|exact Hm]. exact H1. }
    destruct (battr_legals _ _ _ _ _ Ha) as [Lp Ll]. apply IH in Hm; [|exact K2]. destruct Hm as (t & a & d & e & Ht & -> & -> & N & Hcl & Hnd & Hkp).
    also T N1. also T N. exists (w ++ wa ++ t), (AAttr (utf8 l') (utf8 p') v :: a), d, e. split; [|split; [rewrite <- app_assoc; reflexivity|split; [auto|rewrite <- !app_assoc in *; auto]]].
    apply bt_attr; auto; [|intros ->; auto]. intros [-> ->]. discriminate.
Qed.

(* ---- tags ---- *)
Notation btag := (btag E (truthful H) tok more).
Notation bcontent := (bcontent E (truthful H) tok more).
Notation belement := (belement E (truthful H) tok more).
Lemma key_is : forall p l, match utf8 p with [] => utf8 l | _ => utf8 p ++ [58] ++ utf8 l end = utf8 (qname p l).
Proof. intros p l. unfold qname. destruct p as [|c p]; [reflexivity|]. rewrite !utf8_app. destruct (utf8 (c :: p)) as [|x y] eqn:Hx; [apply utf8_nil in Hx; discriminate|]. reflexivity. Qed.
Lemma startTag_tells : forall n s s', kp s -> parseStartTag E S H n s = (Ret tt, s') ->
  exists t p l u k a e, tells s (60 :: t ++ e) [EStartElement (utf8 l) (utf8 p) u k a] s' /\ closes e (inp s') /\ legals p /\ legals l /\
    btag (rev (nsTab s)) t p l u k a (rev (nsTab s')) /\ nodeTab s' = (utf8 l, utf8 p, u) :: nodeTab s /\ kp s'.
Proof.
  intros n s s' Hk Hm. unfold parseStartTag in Hm. pk Hm. destruct (Z.eqb_spec (peek E (inp s)) 60) as [H60|]; [|discriminate]. cbn [negb] in Hm. apply (peek_is E OK NC) in H60 as [t0 Ht0]; [|lia].
  nxt Hm u0 s1 H1. apply madvance_form in H1. rewrite Ht0, advance_1 in H1. subst s1. assert (T : tells s [60] [] (set_inp S t0 s)) by (apply tells_read; auto).
  apply bind_inv in Hm as ([local prefix] & s1 & H1 & Hm). apply lift_inv in H1 as (l1 & H1 & ->). apply por_else_inv in H1. cbn [inp set_inp] in H1.
  apply (qname_form E OK NC OV) in H1 as (q & p & l & -> & Hq & -> & -> & _ & _). destruct (lqname_legals E _ _ _ Hq) as [Lp Ll].
  assert (N : tells (set_inp S (q ++ l1) s) q [] (set_inp S l1 (set_inp S (q ++ l1) s))) by (apply tells_read; auto). also T N. rewrite set_inp_2 in *.
  destruct (utf8 l) as [|x0 y0] eqn:Hul; [discriminate|]. rewrite <- Hul in *. assert (Hl : l <> []) by (intros ->; discriminate). clear x0 y0 Hul.
  apply bind_inv in Hm as ([attrs k] & s1 & H1 & Hm). apply attrLoop_tells in H1; [|exact Hk]. destruct H1 as (t & a & d & e & Ht & -> & -> & N & Hcl & Hnd & Hk1). also T N.
  cbn [nsTab nodeTab set_inp app Nat.add] in *.
  nxt Hm df s2 H2. inversion H2; subst df s2. clear H2. cbv zeta in Hm. rewrite (proj2 Hk1), key_is in Hm.
  set (defs := permute E (List.length (tr s1)) (defaultsOf (utf8 (qname p l)) DF)) in *.
  assert (Hdef : Permutation (map (fun x : str * str * str => let '(l, p, v) := x in ADefault l p v) defs) (more (utf8 (qname p l)))).
  { eapply Permutation_trans; [|apply MORE]. apply Permutation_map, ok_permute; auto. }
  nxt Hm tab s2 H2. inversion H2; subst tab s2. clear H2.
  destruct (negb (str_eqb (utf8 p) []) && str_eqb (lookupNS (nsTab s1) (utf8 p)) []) eqn:Hns; [discriminate|].
  rewrite (reported_is E NC OV) in Hm. rewrite lookup_is in *. set (u := lookup (rev (nsTab s1)) (utf8 p)) in *.
  assert (Hu : p <> [] -> u <> []).
  { intros Hp Hu. rewrite Hu in Hns. apply utf8_nonempty in Hp. destruct (str_eqb_spec (utf8 p) []); [congruence|discriminate]. }
  nxt Hm u2 s2 H2. pose proof (still_emit _ _ _ _ H2) as (N2 & D2 & K2). apply emit_tells in H2. pose proof H2 as (I2 & _). also T H2.
  assert (Hs' : s' = set_nodeTab S ((utf8 l, (if str_eqb u [] then [] else utf8 p), u) :: nodeTab s2) s2) by (inversion Hm; auto). clear Hm.
  replace (if str_eqb u [] then [] else utf8 p) with (utf8 p) in Hs'.
  2:{ destruct (str_eqb_spec u []) as [Hz|]; [|auto]. destruct p as [|x p]; [reflexivity|]. exfalso. apply Hu; [discriminate|auto]. }
  eexists (q ++ t), p, l, u, _, _, e. split; [|split; [|split; [auto|split; [auto|split; [|split]]]]].
  - destruct T as (T1 & T2 & T3). rewrite app_nil_r in T1. rewrite Hs'. split; [cbn [inp set_nodeTab]; rewrite T1, <- !app_assoc; reflexivity|]. split; [exact T2|exact T3].
  - rewrite Hs'. cbn [inp set_nodeTab]. cbn [app] in I2. rewrite <- I2. exact Hcl.
  - rewrite Hs'. cbn [nsTab set_nodeTab]. rewrite N2. econstructor; eauto.
  - rewrite Hs'. cbn [nodeTab set_nodeTab]. rewrite D2, Hnd. reflexivity.
  - rewrite Hs'. destruct K2 as [A B], Hk1 as [C D]. split; cbn [attsSpecial attsDefault set_nodeTab]; congruence.
Qed.
Lemma endTag_tells : forall s p l u nd s', nodeTab s = (utf8 l, utf8 p, u) :: nd -> legals p -> legals l -> parseEndTag E S H s = (Ret tt, s') ->
  exists t, (t = s_ "/>" \/ t = s_ "</" ++ qname p l ++ s_ ">") /\ tells s t [EEndElement (utf8 l) (utf8 p) u] s' /\ nsTab s' = nsTab s /\ nodeTab s' = nd /\ kept s s'.
Proof.
  intros s p l u nd s' Hn Lp Ll Hm. unfold parseEndTag in Hm. nxt Hm empty s1 H1. apply mconsume_form in H1.
  nxt Hm nodes s2 H2. inversion H2; subst nodes s2. clear H2.
  assert (Hn1 : nodeTab s1 = (utf8 l, utf8 p, u) :: nd) by (destruct H1 as [(_ & r & _ & ->)|(_ & -> & _)]; auto). rewrite Hn1 in Hm.
  nxt Hm u1 s2 H2. nxt Hm u2 s3 H3.
  assert (Hx : exists t, (t = s_ "/>" \/ t = s_ "</" ++ qname p l ++ s_ ">") /\ tells s t [] s2 /\ held s s2).
  { destruct empty.
    - inversion H2; subst. destruct H1 as [(_ & r & Hr & ->)|(Hx & _)]; [|discriminate]. exists (s_ "/>"). split; [auto|]. split; [apply tells_read; auto|repeat split].
    - destruct H1 as [(Hx & _)|(_ & -> & _)]; [discriminate|]. nxt H2 ok1 s4 H4. apply mconsume_form in H4 as [(-> & r & Hr & ->)|(-> & _)]; [|discriminate].
      cbn [negb] in H2. nxt H2 ok2 s5 H5. apply mconsume_form in H5 as [(-> & r2 & Hr2 & ->)|(-> & _)]; [|discriminate].
      cbn [negb inp set_inp] in *. rewrite set_inp_2 in H2. rewrite nodeName_form in Hr2 by auto. pk H2.
      cbn [inp set_inp] in H2. destruct (Z.eqb_spec (peek E r2) 62) as [H62|]; [|discriminate]. cbn [negb] in H2. apply (peek_is E OK NC) in H62 as [r3 ->]; [|lia].
      apply madvance_form in H2. cbn [inp set_inp] in H2. rewrite advance_1, set_inp_2 in H2. subst s2. eexists. split; [right; reflexivity|]. split; [|repeat split].
      apply tells_read. rewrite Hr, Hr2, <- !app_assoc. reflexivity. }
  destruct Hx as (t & Ht & T & N & D & K). pose proof (still_emit _ _ _ _ H3) as (N3 & D3 & K3). apply emit_tells in H3. also T H3. rewrite app_nil_r in T. clear H1 H2.
  assert (Hs' : s' = set_nodeTab S (tl (nodeTab s3)) s3) by (inversion Hm; auto). exists t. split; [auto|]. rewrite Hs'. split; [exact T|]. cbn [nsTab nodeTab set_nodeTab]. split; [congruence|].
  split; [rewrite D3, D, Hn; reflexivity|]. eapply kept_trans; [exact K|exact K3].
Qed.

(* ---- content ---- *)
Definition part (t : list Z) (evs : list event) : Prop := forall tab r e tab', bcontent tab r e tab' -> bcontent tab (t ++ r) (evs ++ e) tab'.
Lemma pi_part : forall s u s', parsePI E S H s = (Ret u, s') -> exists t evs, tells s t evs s' /\ part t evs.
Proof.
  intros s u s' Hm. unfold parsePI in Hm. apply bind_inv in Hm as ([t d] & s1 & H1 & Hm). apply lift_inv in H1 as (l1 & H1 & ->).
  apply (pi_form E OK NC OV) in H1 as (n & z & Hn & Hz & -> & H1). cbn [fst snd] in Hm. apply emit_tells in Hm.
  assert (Hd : drop z) by (unfold nul in Hz; unfold drop; tauto).
  destruct H1 as [[H1 ->]|(b & x & H1 & B1 & B2 & B3 & ->)].
  - assert (T : tells s (s_ "<?" ++ n ++ z ++ s_ "?>") [] (set_inp S l1 s)) by (apply tells_read; rewrite H1, <- !app_assoc; auto). also T Hm.
    eexists _, _. split; [exact T|]. intros tab r e tab' Hr; rewrite <- !app_assoc; apply bc_pi0; auto.
  - assert (T : tells s (s_ "<?" ++ n ++ z ++ b ++ x ++ s_ "?>") [] (set_inp S l1 s)) by (apply tells_read; rewrite H1, <- !app_assoc; auto). also T Hm.
    eexists _, _. split; [exact T|]. intros tab r e tab' Hr; rewrite <- !app_assoc; apply bc_pi; auto.
Qed.
Lemma comment_part : forall s u s', parseComment E S H s = (Ret u, s') -> inp s' = [] \/ exists t evs, tells s t evs s' /\ part t evs.
Proof.
  intros s u s' Hm. unfold parseComment in Hm. apply bind_inv in Hm as (v & s1 & H1 & Hm). apply lift_inv in H1 as (l1 & H1 & ->).
  apply (scanComment_form E OK NC OV) in H1. apply emit_tells in Hm.
  destruct H1 as [(b & b' & Hx & B1 & B2 & ->)|[(b & c & Hx & B1 & B2)|(b & Hb & Hx & B1)]].
  - right. assert (T : tells s (s_ "<!--" ++ b ++ s_ "-->") [] (set_inp S l1 s)) by (apply tells_read; rewrite Hx, <- !app_assoc; auto). also T Hm.
    eexists _, _. split; [exact T|]. intros tab r e tab' Hr; rewrite <- !app_assoc; apply bc_comment; auto.
  - right. assert (T : tells s (s_ "<!--" ++ b ++ [c]) [] (set_inp S l1 s)) by (apply tells_read; rewrite Hx, <- !app_assoc; auto). also T Hm.
    eexists _, _. split; [exact T|]. intros tab r e tab' Hr; rewrite <- !app_assoc; apply bc_open; auto.
  - left. destruct Hm as (Hi & _). cbn [inp set_inp] in Hi. rewrite Hx in Hi. symmetry. exact Hi.
Qed.
Lemma cdata_part : forall s u s', parseCDSect E S H s = (Ret u, s') -> exists t evs, tells s t evs s' /\ part t evs.
Proof.
  intros s u s' Hm. unfold parseCDSect in Hm. nxt Hm ok1 s1 H1. apply consume_tells in H1 as [[-> T]|[-> ->]]; [|discriminate]. cbn [negb] in Hm.
  nxt Hm u1 s2 H2. apply wrap_inv in H2. unfold parseCharData in H2. nxt H2 t s3 H3. apply lift_inv in H3 as (l1 & H3 & ->). apply cdata_form in H3 as (b & Hb & B1 & B2 & B3 & ->).
  assert (N : tells s1 b [] (set_inp S l1 s1)) by (apply tells_read; auto). also T N. apply emit_tells in H2. also T H2.
  nxt Hm ok2 s4 H4. apply consume_tells in H4 as [[-> N]|[-> ->]]; [|discriminate]. also T N. inversion Hm; subst s'. eexists _, _. split; [exact T|]. intros tab r e tab' Hr.
  match goal with |- LooseBody.bcontent _ _ _ _ _ ?X _ _ => assert (Q : X = s_ "<![CDATA[" ++ b ++ s_ "]]>" ++ r) by (repeat (rewrite <- ?app_assoc; cbn [app]); reflexivity) end.
  rewrite Q. apply bc_cdata; auto. apply TextProofs.eol_total.
Qed.
Lemma text_tells : forall s u s', parseCharData E S H false s = (Ret u, s') ->
  exists t t' e, tells s t [e] s' /\ text_run t /\ eol t t' /\ (e = ECharacters (utf8 t') \/ (blanks t /\ e = EIgnorableWhitespace (utf8 t'))) /\
    match inp s' with [] => True | c :: _ => c = 60 \/ c = 38 \/ legal c = false end.
Proof.
  intros s u s' Hm. unfold parseCharData in Hm. nxt Hm t s1 H1. apply lift_inv in H1 as (l1 & H1 & ->).
  apply scanCharData_inv in H1 as (cs & Hi & Ht & -> & Hend). nxt Hm b s2 H2. unfold areBlanks in H2.
  inversion H2 as [[Hb Hs2]]. subst s2. clear H2. pose proof (TextProofs.eol_total cs) as He.
  assert (Hx : exists e, emit S H e (set_inp S l1 s) = (Ret u, s') /\ (e = ECharacters (utf8 (crlf cs)) \/ (blanks cs /\ e = EIgnorableWhitespace (utf8 (crlf cs))))).
  { destruct b; eexists; (split; [exact Hm|]); [right|left; auto]. split; [|auto].
    destruct (forallb isBlankCh (utf8 (crlf cs))) eqn:Hf; [|discriminate]. eapply eol_blanks; [exact He|]. apply (blank_utf8 E NC OV); [|auto].
    eapply eol_legals; [exact He|]. apply Ht. }
  destruct Hx as (e & Hem & Hee). apply emit_tells in Hem. assert (T : tells s cs [] (set_inp S l1 s)) by (apply tells_read; auto). pose proof Hem as (Hi' & _). cbn [inp set_inp app] in Hi'.
  also T Hem. rewrite app_nil_r in T. rewrite Hi' in Hend. exists cs, (crlf cs), e. repeat split; auto; try apply Ht; apply T.
Qed.
Lemma forest_balanced : forall i evs, TForest i true evs -> balanced (rev evs).
Proof. intros i evs Hf stk. destruct (Hf stk) as (stk' & Hn & Hs). rewrite Hs in Hn by auto. exact Hn. Qed.
Lemma chunk_tells : forall K c s u s', eff TForest K -> parseBalancedChunk S H K c s = (Ret u, s') -> exists inner, tells s [] inner s' /\ balanced inner.
Proof.
  intros K c s u s' HK Hm. destruct (eff_chunk S H K c HK s) as (evs & H1 & H2 & _). rewrite Hm in H1, H2. cbn [fst snd isret] in H1, H2. exists (rev (map fst evs)). split; [|eapply forest_balanced; eauto].
  unfold parseBalancedChunk in Hm. cbv zeta in Hm. destruct (40 <? depth s + 1); [discriminate|]. match type of Hm with (let '(_, _) := ?k in _) = _ => destruct k as [o s1] end. inversion Hm; subst.
  split; [reflexivity|]. split; [|reflexivity]. rewrite H1, map_app, rev_involutive. reflexivity.
Qed.
Lemma reference_part : forall K s u s', eff TForest K -> parseReference E S H K s = (Ret u, s') -> inp s' = [] \/ exists t evs, tells s t evs s' /\ part t evs.
Proof.
  intros K s u s' HK Hm. unfold parseReference in Hm. pk Hm. destruct (Z.eqb_spec (peek E (inp s)) 38) as [H38|]; [|discriminate]. cbn [negb] in Hm. apply (peek_is E OK NC) in H38 as [t Ht]; [|lia].
  nxt Hm c2 s1 H1. apply mpeekn_form in H1 as [-> ->]. match type of Hm with (if ?b then _ else _) _ = _ => destruct b end.
  - nxt Hm x s1 H1. apply wrap_inv in H1. apply lift_inv in H1 as (l1 & H1 & ->). rewrite Ht in H1. apply (charref_form E OK NC OV) in H1. apply emit_tells in Hm.
    destruct H1 as [->|(t' & Ht' & Hr)]; [left; destruct Hm as (Hm & _); symmetry; exact Hm|]. inversion Ht'; subst t'. clear Ht'. apply lref_local in Hr as (w & -> & Hr). right.
    assert (T : tells s (38 :: w) [] (set_inp S l1 s)) by (apply tells_read; exact Ht). also T Hm. rewrite app_nil_r in T. eexists _, _. split; [exact T|]. intros tab r e tab' Hc. cbn [app].
    replace (encode_rune x) with (utf8 [x]) by (unfold utf8; cbn [flat_map]; apply app_nil_r). eapply bc_ref; [apply Hr|exact Hc].
  - right. nxt Hm e s1 H1. apply wrap_inv, (entityRef_tells E OK NC OV) in H1 as (nm & z & T & Hn & Hz & He). destruct (predefined (utf8 nm)) as [ct|] eqn:Hp.
    + destruct He as [Hty Hco]. rewrite Hty, Z.eqb_refl, orb_true_r, Hco in Hm. destruct (predefined_names nm ct Hp) as (x & -> & N1 & N2 & N3); [apply Hn|]. cbn [str_eqb] in Hm. apply emit_tells in Hm. also T Hm.
      rewrite app_nil_r in T. eexists _, _. split; [exact T|]. intros tab r e' tab' Hc. assert (Hx : [x] = utf8 [x]).
      { unfold predefined in Hp. repeat match type of Hp with (if ?b then _ else _) = _ => destruct b; [inversion Hp; reflexivity|] end. discriminate. }
      cbn [app]. rewrite Hx. eapply bc_ref; [|exact Hc]. rewrite <- !app_assoc. cbn [app]. destruct Hz as [->| ->]; [apply lr_plain; auto; apply N3|]. cbn [app]. apply lr_nul; [apply N3|auto|exact I].
    + assert (X : exists rep, tells s1 [] rep s' /\ balanced rep /\ (truthful H -> exists inner, rep = inner ++ [EReference (utf8 nm)] /\ balanced inner)).
      { destruct (str_eqb_spec (e_name e) []) as [He1|He1]; [|destruct (Z.eqb_spec (e_type e) InternalPredefinedEntity) as [He2|He2]]; cbn [orb] in Hm.
        1,2: assert (Hno : ~ truthful H) by (intros Tr; destruct (He Tr) as [A B]; rewrite ?He1 in A; try contradiction; symmetry in A; apply utf8_nil in A; subst nm; destruct Hn as ([] & _));
          (match type of Hm with (if ?b then _ else _) _ = _ => destruct b end; [inversion Hm; subst s'; exists []; split; [apply tells_refl|]; split; [intros stk; reflexivity|contradiction]|]);
          apply emit_tells in Hm; eexists; (split; [exact Hm|]); (split; [intros stk; reflexivity|contradiction]).
        destruct (e_type e =? ExternalGeneralParsedEntity); [discriminate|]. destruct (e_type e =? InternalGeneralEntity); [|discriminate]. nxt Hm u1 s2 H1. apply chunk_tells in H1 as (inner & N & Hb); [|auto].
        assert (Hm' : emit S H (EReference (e_name e)) s2 = (Ret u, s')) by (unfold emit, wrap; rewrite Hm; reflexivity). apply emit_tells in Hm'. also N Hm'. exists (inner ++ [EReference (e_name e)]). split; [exact N|].
        split; [intros stk; rewrite nested_app, Hb; reflexivity|]. intros Tr. destruct (He Tr) as [-> _]. exists inner. auto. }
      destruct X as (rep & N & Hb & Hh). also T N. rewrite app_nil_r in T. eexists _, _. split; [exact T|]. intros tab r e' tab' Hc.
      pose proof (bc_entity E (truthful H) tok more tab nm z rep r e' tab' Hn Hz (predefined_kept E _ Hn Hp) Hb Hh Hc) as X. cbn [app] in X |- *. rewrite <- !app_assoc. exact X.
Qed.

Definition content_inv (K : M S unit) : Prop := forall s s', kp s -> K s = (Ret tt, s') -> inp s' <> [] ->
  exists src evs, tells s src evs s' /\ (exists r, inp s' = s_ "</" ++ r) /\ bcontent (rev (nsTab s)) src evs (rev (nsTab s')) /\ nodeTab s' = nodeTab s /\ kp s'.
Lemma element_tells : forall n K, content_inv K -> forall s s', kp s -> parseElement E S H n K s = (Ret tt, s') ->
  exists src evs, tells s src evs s' /\ belement (rev (nsTab s)) src evs (rev (nsTab s')) /\ nodeTab s' = nodeTab s /\ kp s'.
Proof.
  intros n K HK s s' Hk Hm. unfold parseElement in Hm. nxt Hm u1 s1 H1. apply wrap_inv in H1. destruct u1.
  apply startTag_tells in H1; [|auto]. destruct H1 as (t & p & l & u & k & a & e & T & Hcl & Lp & Ll & Ht & Hnt & Hk1).
  nxt Hm em s2 H2. apply mhas_form in H2 as [-> ->]. nxt Hm u2 s2 H2. destruct u2. apply wrap_inv in Hm.
  destruct (has_prefix (s_ "/>") (inp s1)) eqn:Hp.
  - inversion H2; subst s2. clear H2. apply endTag_tells with (p := p) (l := l) (u := u) (nd := nodeTab s) in Hm; auto.
    destruct Hm as (t2 & Ht2 & N & Hns & Hnd & Hkp). pose proof N as (Ni & _). destruct Ht2 as [->| ->]; [|rewrite Ni in Hp; discriminate].
    also T N. rewrite Hns. assert (Hk' : kp s') by (destruct Hk1, Hkp; split; congruence). destruct Hcl as [->|[-> _]].
    + exists (s_ "<" ++ t ++ s_ ">" ++ s_ "/>"). eexists. split; [|split; [apply be_slash; exact Ht|auto]].
      change (s_ "<") with [60]. change (s_ ">") with [62]. cbn [app] in T |- *. rewrite <- !app_assoc in T. exact T.
    + exists (s_ "<" ++ t ++ s_ "/>"). eexists. split; [|split; [apply be_empty; exact Ht|auto]].
      change (s_ "<") with [60]. cbn [app] in T |- *. rewrite app_nil_r in T. exact T.
  - destruct Hcl as [->|(-> & r & Hr)]; [|rewrite Hr in Hp; discriminate]. apply wrap_inv in H2.
    pose proof (endTag_nonempty _ _ _ _ _ _ Hm) as Hne. destruct (HK _ _ Hk1 H2 Hne) as (src & evs & N & (r & Hr) & Hcont & Hnd & Hk2).
    apply endTag_tells with (p := p) (l := l) (u := u) (nd := nodeTab s) in Hm; auto; [|congruence].
    destruct Hm as (t2 & Ht2 & N2 & Hns & Hnd2 & Hkp). pose proof N2 as (Ni & _). destruct Ht2 as [->| ->]; [rewrite Hr in Ni; discriminate|].
    pose proof N as (Ni1 & _). also T N. also T N2. assert (Hk' : kp s') by (destruct Hk2, Hkp; split; congruence).
    exists (s_ "<" ++ t ++ s_ ">" ++ src ++ s_ "</" ++ qname p l ++ s_ ">"). eexists. split; [|split; [rewrite Hns; eapply be_full; [exact Ht|exact Hcont|]|auto]].
    + cbn [app] in T |- *. match type of T with LooseSubset.tells _ _ ?X _ _ => match goal with |- LooseSubset.tells _ _ ?Y _ _ => assert (Q : Y = X) end end.
      { change (s_ "<") with [60]. change (s_ ">") with [62]. change (s_ "</") with [60; 47]. repeat (rewrite <- ?app_assoc; cbn [app]). reflexivity. }
      rewrite Q. exact T.
    + intros y ->. rewrite Ni1 in Hp. discriminate.
Qed.
Lemma content_tells : forall n, content_inv (parseContent E S H n).
Proof.
  induction n as [|n IH]; intros s s' Hk Hm Hne; cbn [parseContent] in Hm; [discriminate|]. apply bind_inv in Hm as (d & s1 & H1 & Hm).
  inversion H1; subst d s1. clear H1. destruct (inp s) as [|c0 t0] eqn:Hi0; cbn [done] in Hm; [inversion Hm; subst; congruence|].
  cbv zeta in Hm. try rewrite <- Hi0 in Hm. clear c0 t0 Hi0.
  assert (X : forall (m : M S unit), still m -> (forall s u s', m s = (Ret u, s') -> inp s' = [] \/ exists t evs, tells s t evs s' /\ part t evs) ->
    bind S (wrap S m) (fun _ => parseContent E S H n) s = (Ret tt, s') ->
    exists src evs, tells s src evs s' /\ (exists r, inp s' = s_ "</" ++ r) /\ bcontent (rev (nsTab s)) src evs (rev (nsTab s')) /\ nodeTab s' = nodeTab s /\ kp s').
  { intros m Hst Hpart Hx. nxt Hx u1 s1 H1. apply wrap_inv in H1. pose proof (Hst _ _ _ H1) as Hh. pose proof Hh as (N1 & D1 & _). apply Hpart in H1.
    destruct (IH _ _ (kp_held _ _ Hk Hh) Hx Hne) as (src & evs & N & Hr & Hcont & Hnd & Hk'). destruct H1 as [H1|(t & e1 & T & Hp)].
    - exfalso. destruct N as (N & _). rewrite H1 in N. symmetry in N. apply app_eq_nil in N. tauto.
    - also T N. eexists _, _. split; [exact T|]. split; [auto|]. rewrite <- N1. split; [apply Hp; exact Hcont|]. split; [congruence|auto]. }
  destruct (has_prefix (s_ "</") (inp s)) eqn:P1.
  { inversion Hm; subst. exists [], []. split; [apply tells_refl|]. split; [apply has_prefix_true; auto|]. split; [apply bc_nil|auto]. }
  destruct (has_prefix (s_ "<?") (inp s)) eqn:P2.
  { eapply X; [apply still_pi| |exact Hm]. intros s0 u0 s0' H0. right. eapply pi_part; eauto. }
  destruct (has_prefix (s_ "<![CDATA[") (inp s)) eqn:P3.
  { eapply X; [apply still_cdata| |exact Hm]. intros s0 u0 s0' H0. right. eapply cdata_part; eauto. }
  destruct (has_prefix (s_ "<!--") (inp s)) eqn:P4.
  { eapply X; [apply still_comment| |exact Hm]. intros s0 u0 s0' H0. eapply comment_part; eauto. }
  destruct (has_prefix (s_ "<") (inp s)) eqn:P5.
  { apply bind_inv in Hm as ([] & s1 & H1 & Hm). apply wrap_inv in H1. apply element_tells in H1; [|exact IH|auto]. destruct H1 as (x & evs1 & T & Hel & Hnd1 & Hk1).
    destruct (IH _ _ Hk1 Hm Hne) as (src & evs & N & Hr & Hcont & Hnd & Hk'). also T N. eexists _, _. split; [exact T|]. split; [auto|]. split; [eapply bc_elem; eauto|]. split; [congruence|auto]. }
  destruct (has_prefix (s_ "&") (inp s)) eqn:P6.
  { eapply X; [apply (still_reference (parseContent E S H n))| |exact Hm]. intros s0 u0 s0' H0. eapply reference_part; [|exact H0]. apply eff_content. }
  nxt Hm u1 s1 H1. pose proof (still_text _ _ _ _ H1) as Hh. pose proof Hh as (N1 & D1 & _). apply text_tells in H1 as (t & t' & e & T & Ht & Heol & He & Hend).
  destruct (IH _ _ (kp_held _ _ Hk Hh) Hm Hne) as (src & evs & N & Hr & Hcont & Hnd & Hk'). pose proof N as (Ni & _). also T N. eexists _, _. split; [exact T|]. split; [auto|]. rewrite <- N1.
  split; [|split; [congruence|auto]]. apply bc_text with (t' := t'); auto.
  unfold starts_markup. destruct src as [|c src]; [auto|right]. cbn [app hd] in *. rewrite Ni in Hend. destruct Hend as [|[|Hend]]; auto.
  exfalso. eapply content_illegal; eauto.
Qed.

(* ---- around the root element ---- *)
Lemma misc_last : forall n s u s', parseMisc E S H n s = (Ret u, s') ->
  exists m z e1 e2, tells s (m ++ z) (e1 ++ e2) s' /\ lmisc all E m e1 /\ llast all z e2 /\ (z <> [] -> inp s' = []).
Proof.
  induction n as [|n IH]; intros s u s' Hm; cbn [parseMisc] in Hm; [discriminate|]. nxt Hm d s1 H1. inversion H1; subst d s1. clear H1.
  assert (Hnil : s' = s -> exists m z e1 e2, tells s (m ++ z) (e1 ++ e2) s' /\ lmisc all E m e1 /\ llast all z e2 /\ (z <> [] -> inp s' = [])).
  { intros ->. exists [], [], [], []. split; [apply tells_refl|]. split; [apply lm_nil|]. split; [apply ll_closed|]. congruence. }
  destruct (done (inp s)); [apply Hnil; inversion Hm; auto|]. cbv zeta in Hm.
  destruct (has_prefix (s_ "<?") (inp s)).
  { nxt Hm u1 s1 H1. apply wrap_inv, (pi_tells E OK NC OV) in H1 as (t & evs & T & _ & Ht). apply IH in Hm as (m & z & e1 & e2 & N & Hmi & Hla & Hend). also T N.
    exists (t ++ m), z, (evs ++ e1), e2. rewrite <- !app_assoc. split; [exact T|]. auto. }
  destruct (has_prefix (s_ "<!--") (inp s)).
  { nxt Hm u1 s1 H1. apply wrap_inv in H1. unfold parseComment in H1. nxt H1 v s2 H2. apply lift_inv in H2 as (l1 & H2 & ->). apply (scanComment_form E OK NC OV) in H2. apply emit_tells in H1.
    apply IH in Hm as (m & z & e1 & e2 & N & Hmi & Hla & Hend). pose proof H1 as (Hi1 & _). cbn [inp set_inp app] in Hi1.
    destruct H2 as [(b & b' & Hx & B1 & B2 & ->)|[(b & c & Hx & B1 & B2)|(b & Hb & Hx & B1)]].
    - assert (T : tells s (s_ "<!--" ++ b ++ s_ "-->") [] (set_inp S l1 s)) by (apply tells_read; rewrite Hx, <- !app_assoc; auto). also T H1. rewrite app_nil_r in T. also T N.
      exists (s_ "<!--" ++ b ++ s_ "-->" ++ m), z. eexists _, e2. split; [|split; [apply lm_comment; eauto|auto]]. rewrite <- !app_assoc in T |- *. exact T.
    - assert (T : tells s (s_ "<!--" ++ b ++ [c]) [] (set_inp S l1 s)) by (apply tells_read; rewrite Hx, <- !app_assoc; auto). also T H1. rewrite app_nil_r in T. also T N.
      exists (s_ "<!--" ++ b ++ c :: m), z. eexists _, e2. split; [|split; [apply lm_open; eauto; exact I|auto]]. rewrite <- !app_assoc in T |- *. cbn [app] in T |- *. exact T.
    - assert (T : tells s (s_ "<!--" ++ b) [] (set_inp S l1 s)) by (apply tells_read; rewrite Hb, Hx, app_nil_r; auto). also T H1. rewrite app_nil_r in T.
      assert (Hs1 : inp s1 = []) by congruence. pose proof N as (Ni & _). rewrite Hs1 in Ni. symmetry in Ni. apply app_eq_nil in Ni as [Ni Ni2]. apply app_eq_nil in Ni as [-> ->].
      assert (e1 = []) by (inversion Hmi; auto). assert (e2 = []) by (inversion Hla; auto). subst e1 e2. also T N. rewrite app_nil_r in T.
      exists [], (s_ "<!--" ++ b), [], [EComment v]. split; [exact T|]. split; [constructor|]. split; [constructor; [auto|exact I]|auto]. }
  destruct (isBlankCh (peek E (inp s))); [|apply Hnil; inversion Hm; auto].
  nxt Hm u1 s1 H1. apply skip_tells in H1 as (w & T & Hw & _ & _). apply IH in Hm as (m & z & e1 & e2 & N & Hmi & Hla & Hend). also T N.
  exists (w ++ m), z, e1, e2. rewrite <- !app_assoc. split; [exact T|]. split; [|auto]. clear T. induction Hw as [|c w Hc _ IHw]; [auto|]. apply lm_blank; auto.
Qed.
Lemma lmisc_blanks : forall w, blanks w -> lmisc all E w []. Proof. intros w Hw. induction Hw; [constructor|]. apply lm_blank; auto. Qed.
Lemma lmisc_app : forall a e1 b e2, lmisc all E a e1 -> lmisc all E b e2 -> lmisc all E (a ++ b) (e1 ++ e2).
Proof.
  intros a e1 b e2 Ha Hb. induction Ha; cbn [app]; rewrite <- ?app_assoc; cbn [app]; auto; try (econstructor; eauto; fail).
Qed.
Lemma body_tells : forall n s u s', kp s -> nsTab s = [] -> bind S (wrap S (parseMisc E S H n)) (fun _ => body_end E S H n) s = (Ret u, s') ->
  exists t evs, tells s t (evs ++ [EEndDocument]) s' /\ inp s' = [] /\ bbody E (truthful H) tok more t evs.
Proof.
  intros n s u s' Hk Hns Hm. nxt Hm u1 s1 H1. apply wrap_inv in H1. pose proof (still_misc _ _ _ _ H1) as Hh. pose proof (kp_held _ _ Hk Hh) as Hk1. destruct Hh as (N1 & _ & _). rewrite Hns in N1.
  apply (misc_tells E OK NC OV) in H1. unfold body_end in Hm. nxt Hm b s2 H2. pose proof (still_lift _ _ _ _ _ H2) as Hh. pose proof (kp_held _ _ Hk1 Hh) as Hk2. destruct Hh as (N2 & _ & _).
  apply skip_tells in H2 as (w & T2 & Hw & _ & _). pk Hm. destruct (Z.eqb_spec (peek E (inp s2)) 60) as [H60|]; [|discriminate]. cbn [negb] in Hm. apply (peek_is E OK NC) in H60 as [r Hr]; [|lia].
  destruct H1 as [H1|(m & e1 & T & Hmi)].
  { exfalso. destruct T2 as (T2 & _). rewrite H1, Hr in T2. destruct w; discriminate. }
  nxt Hm u3 s3 H3. destruct u3. apply wrap_inv in H3. apply element_tells in H3; [|apply content_tells|exact Hk2]. destruct H3 as (x & evs & T3 & Hel & _ & Hk3). rewrite N2, N1 in Hel. cbn [rev] in Hel.
  nxt Hm u4 s4 H4. apply wrap_inv, misc_last in H4 as (m2 & z & e3 & e4 & T4 & Hm2 & Hz & _).
  nxt Hm fin s5 H5. inversion H5; subst fin s5. clear H5. destruct (inp s4) as [|c0 t0] eqn:Hi4; [|discriminate]. cbn [done negb] in Hm. apply emit_tells in Hm. pose proof Hm as (Hi' & _). cbn [app] in Hi'. rewrite Hi4 in Hi'.
  also T T2. also T T3. also T T4. also T Hm. rewrite !app_nil_r in T. rewrite <- !app_assoc in T.
  exists ((m ++ w) ++ x ++ m2 ++ z), (e1 ++ evs ++ e3 ++ e4). split; [rewrite <- !app_assoc; exact T|]. split; [auto|].
  econstructor; eauto. pose proof (lmisc_app _ _ _ _ Hmi (lmisc_blanks _ Hw)) as X. rewrite app_nil_r in X. exact X.
Qed.
End S.

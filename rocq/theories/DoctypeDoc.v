(* Documents with a document type declaration: every one of Doctype.v is read
   to its end and reported as the grammar says. *)
From Coq Require Import Permutation.
From Verif Require Import Base Utf8 Utf8Proofs Encoding XmlSpec EscapeProofs Scan ScanProofs LexProofs Parser TextProofs Complete DocComplete.
From Verif Require Import ContentProofs Content Doctype DoctypeAttr DoctypeContent DoctypeSubset Grammar.
Local Open Scope Z_scope.

Scheme text_mut := Minimality for text Sort Prop with texts_mut := Minimality for texts Sort Prop.
Section Legal.
Variable E : env.
Hypothesis OK : env_ok E.
Ltac parts := repeat match goal with
  | |- legals (_ ++ _) => apply legals_app
  | |- legals (s_ _) => repeat constructor
  | |- legals (keyword ?t) => destruct t; repeat constructor
  | |- legals [?c] => first [is_var c; fail 1 | constructor; [reflexivity|constructor]]
  | |- legals [] => constructor
  | h : ?q = 34 \/ ?q = 39 |- legals [?q] => destruct h; subst; repeat constructor
  | h : blanks ?b |- legals ?b => apply blanks_legal; exact h
  | h : ncname E ?b |- legals ?b => apply (ncname_legal E); exact h
  | h : qnamed E ?p ?l |- legals (qname ?p ?l) => apply (qname_legal E); exact h
  | h : pname E ?p ?l |- legals (qname ?p ?l) => apply (qname_legal E); exact (proj1 h)
  | h : attlit _ ?b _ |- legals ?b => eapply attlit_legal; exact h
  | h : pitarget E ?b |- legals ?b => apply (ncname_legal E), h
  | h : pidata ?b |- legals ?b => apply h
  | h : comment_text ?b |- legals ?b => apply h
  | h : cdata_text ?b |- legals ?b => apply h
  | h : text_run ?b |- legals ?b => apply h
  | |- legals _ => assumption
  end.
Lemma sign_legal : forall o, legals (sign o). Proof. intros []; repeat constructor. Qed.
Lemma text_legal : forall c t, text c t -> forall d, fits E d c -> legals t.
Proof.
  apply (text_mut (fun c t => forall d, fits E d c -> legals t) (fun sep l t => sep = 44 \/ sep = 124 -> forall d, allfit E d l -> legals t)).
  - intros p l o d [Hq _]. parts. apply sign_legal.
  - intros sep l o t _ IH d Hf. destruct d as [|d]; [destruct Hf|]. destruct Hf as (Hs & _ & _ & _ & Hf). fold (allfit E) in Hf.
    parts; [eapply IH; [exact Hs|exact Hf]|apply sign_legal].
  - intros sep c a t b Ha _ IH Hb Hs d Hf. parts. eauto.
  - intros sep c l a t b r Ha _ IH1 Hb _ IH2 Hs d [Hf1 Hf2]. parts; eauto. destruct Hs as [->| ->]; repeat constructor.
Qed.
Lemma spec_legal : forall s t, spec_text s t -> spec_fits E s -> legals t.
Proof.
  intros s t Ht Hf. destruct Ht as [| |st b Hb|p l a b c Ha Hb Hc|sep l o t Ht]; parts.
  - destruct st; repeat constructor.
  - destruct Hf as [Hf _]. parts.
  - repeat constructor.
  - eapply text_legal; eauto.
Qed.
Lemma entlit_legal : forall q lit v, entlit E q lit v -> q = 34 \/ q = 39 -> legals lit.
Proof.
  intros q lit v Hl Hq. destruct (entlit_chars E OK q lit v Hl Hq) as [Hc _]. eapply Forall_impl; [|exact Hc]. cbn beta.
  intros c Hx. apply andb_true_iff in Hx as [Hx _]. rewrite legal_is. exact Hx.
Qed.
Lemma attdef_legal : forall a t, attdef_text E a t -> legals t.
Proof. intros a t Ht. destruct Ht as [b1 b2 t _ Hb1 _ Hb2 Hn Hd _]. parts. destruct Hd; parts. Qed.
Lemma attdefs_legal : forall l t, attdefs E l t -> legals t.
Proof. intros l t Ht. induction Ht; parts; eapply attdef_legal; eauto. Qed.
Lemma subset_legal : forall s ds evs, subset E s ds evs -> legals s.
Proof.
  intros s ds evs Hs. induction Hs; parts.
  - apply (legals_app [c]); auto. apply blanks_legal. constructor; auto.
  - eapply entlit_legal; eauto.
  - eapply entlit_legal; eauto.
  - destruct H1. parts. eapply spec_legal; eauto.
  - eapply attdefs_legal; eauto.
Qed.
Lemma doctype_legal : forall x ds evs, doctype E x ds evs -> legals x.
Proof. intros x ds evs Hx. destruct Hx; parts. eapply subset_legal; eauto. Qed.
Lemma dcontent_legal : forall ds k live ns s evs d, dcontent E ds k live ns s evs d ->
  (forall n t, In (n, t) (entities ds) -> ncname E n) -> legals s.
Proof.
  intros ds k live ns s evs d Hc Hn. revert k live ns s evs d Hc.
  apply (dcontent_mut E ds (fun _ _ _ s _ _ => legals s) (fun _ _ _ s _ _ => legals s)); intros; parts; try (eapply (atts_legal E OK); eauto; fail).
  - destruct (reference_legal _ _ _ H) as (p & -> & Hp). constructor; [reflexivity|]. apply legals_app; auto.
  - constructor; [reflexivity|]. apply Hn in H. change (legals (n ++ [59] ++ s)). parts.
Qed.
Lemma delement_legal : forall ds k live ns s evs d, delement E ds k live ns s evs d ->
  (forall n t, In (n, t) (entities ds) -> ncname E n) -> legals s.
Proof.
  intros ds k live ns s evs d He Hn. destruct He; parts; try (eapply (atts_legal E OK); eauto; fail). eapply dcontent_legal; eauto.
Qed.
End Legal.

Section P.
Variable E : env.
Hypothesis OK : env_ok E.
Variable S : Type.
Variable H : handler S.
Variable known : S -> str -> option str.
Hypothesis R : remembers H known.
Notation st := (Complete.st S).
Notation HT := (S * list (event * hres))%type.
Notation went := (went E S H known).
Notation told := (told E S H known).

Lemma deliver_quiet : forall v evs ht, Forall quiet evs -> exists ht', deliver S H v ht evs = Some ht' /\ went v ht evs ht'.
Proof.
  intros v. induction evs as [|e evs IH]; intros ht Hq; [exists ht; split; [reflexivity|apply went_nil]|]. inversion Hq; subst.
  destruct (accept_quiet E S H known R v ht e) as (h1 & D1 & W1); auto. destruct (IH h1) as (h2 & D2 & W2); auto.
  exists h2. rewrite deliver_cons, D1. split; [exact D2|]. apply (went_app E S H known _ _ [e] h1); auto.
Qed.
Lemma misc_quiet : forall s evs, misc E s evs -> Forall quiet evs.
Proof. intros s evs Hm. induction Hm; auto; constructor; auto; intros ? ? ? ? ?; discriminate. Qed.

(* the state after the declarations *)
Definition declared_state (name : str) (ds : list decl) (z : pst S) : pst S :=
  set_special S (filter (fun p => negb (snd p =? AttrCDATA)) (rev (map special_entry (declared ds))))
    (set_default S (flat_map default_entry (declared ds)) (set_inSubset S 0 (set_intSubName S name z))).

Lemma tables_declared : forall name ds z, Forall (good E) (declared ds) -> tables E S ds true (declared_state name ds z).
Proof.
  intros name ds z Gd. split.
  - intros e a He Ha. cbn [andb]. apply eq_true_iff_eq. unfold special, lookupSpecial, tokenised. cbn [declared_state set_special attsSpecial].
    rewrite existsb_exists. split.
    + destruct (find (fun p => str_eqb (fst p) (special_key (utf8 e) (utf8 a))) _) as [[k t]|] eqn:F; [|discriminate].
      intros _. apply find_some in F as [F1 F2]. cbn [fst] in F2. destruct (str_eqb_spec k (special_key (utf8 e) (utf8 a))) as [->|]; [|discriminate].
      apply filter_In in F1 as [F1 F3]. rewrite <- in_rev in F1. apply in_map_iff in F1 as (x & Hx & Hin). exists x. split; [exact Hin|].
      rewrite Forall_forall in Gd. specialize (Gd x Hin). unfold special_entry in Hx. inversion Hx as [[H1 H2]]. unfold special_key in H1.
      apply last_colon in H1 as [H3 H4]; [|apply (att_no_colon E OK x Gd)|intros Hi; apply utf8_In_ascii in Hi; [|lia]; revert Hi; apply (ncname_no58 E OK), Ha].
      unfold elem_of, att_of in H3, H4. rewrite H3, H4. destruct (str_eqb_spec (utf8 e) (utf8 e)); [|congruence].
      destruct (str_eqb_spec (utf8 a) (utf8 a)); [|congruence]. cbn [snd] in F3. rewrite <- H2 in F3. cbn [andb]. destruct (ad_type (snd x)); auto.
    + intros (x & Hin & Hx). apply andb_true_iff in Hx as [Hx Hc]. apply andb_true_iff in Hx as [He1 Ha1].
      destruct (str_eqb_spec (utf8 (qname (fst (fst x)) (snd (fst x)))) (utf8 e)) as [Ee|]; [|discriminate].
      destruct (str_eqb_spec (utf8 (ad_name (snd x))) (utf8 a)) as [Ea|]; [|discriminate].
      destruct (find (fun p => str_eqb (fst p) (special_key (utf8 e) (utf8 a))) _) as [[k t]|] eqn:F.
      * apply find_some in F as [F1 _]. apply filter_In in F1 as [F1 _]. rewrite <- in_rev in F1. apply in_map_iff in F1 as (y & Hy & _).
        inversion Hy. destruct (ad_type (snd y)); reflexivity.
      * exfalso. apply (find_none _ _ F (special_entry x)) in Hin as Hn || pose proof (find_none _ _ F (special_entry x)) as Hn.
        assert (Hi : In (special_entry x) (filter (fun p => negb (snd p =? AttrCDATA)) (rev (map special_entry (declared ds))))).
        { apply filter_In. split; [rewrite <- in_rev; apply in_map; exact Hin|]. unfold special_entry. cbn [snd]. destruct (ad_type (snd x)); auto. }
        specialize (Hn Hi). unfold special_entry, elem_of, att_of in Hn. cbn [fst] in Hn. rewrite Ee, Ea in Hn.
        destruct (str_eqb_spec (special_key (utf8 e) (utf8 a)) (special_key (utf8 e) (utf8 a))); [discriminate|congruence].
  - intros q. cbn [declared_state set_special set_default attsDefault]. unfold defaults. induction (declared ds) as [|x xs IH]; [reflexivity|].
    inversion Gd; subst. unfold defaultsOf in *. cbn [flat_map]. rewrite filter_app, !map_app, IH by auto. f_equal.
    unfold default_entry, elem_of. destruct (default_value (ad_type (snd x)) (ad_default (snd x))) as [|v0 v]; [reflexivity|].
    cbn [filter fst map]. destruct (str_eqb (utf8 (qname (fst (fst x)) (snd (fst x)))) q); reflexivity.
Qed.

(* ---- the document type declaration ---- *)
(* the same view from inside (1) or after (2) the internal subset, or outside (0) *)
Definition view_in (v : view) (j : Z) : view :=
  {| v_version := v_version v; v_encoding := v_encoding v; v_standalone := v_standalone v; v_inSubset := j |}.
Lemma name_after : forall p l b r, pname E p l -> blanks b -> (exists c w, r = c :: w /\ nameRest E c = false /\ c <> 0) ->
  parseName E (qname p l ++ b ++ r) = (Ret (utf8 (qname p l)), b ++ r).
Proof.
  intros p l b r Hpl Hb (c & w & -> & Hc1 & Hc2). apply (parseName_app E _ _ OK (dname_nameOf E OK p l Hpl)).
  destruct b as [|c0 b]; [split; assumption|]. inversion Hb as [|? ? Hc0 _]; subst.
  assert (Y : closer c0 = true) by (unfold closer; rewrite Hc0; reflexivity). destruct (closer_end E OK c0 Y) as (Y1 & Y2 & _). split; assumption.
Qed.
Lemma delim_rest : forall c, c = 62 \/ c = 91 -> nameRest E c = false /\ c <> 0.
Proof. intros c Hc. unfold nameRest. rewrite (ok_letter E OK), (ok_digit E OK) by lia. unfold isAZ, isD. lia. Qed.
Lemma doctype_start : forall b1 p l b2 c r tab nd ht z, b1 <> [] -> blanks b1 -> pname E p l -> blanks b2 -> c = 62 \/ c = 91 ->
  exists ht', went (the_view S z) ht [EInternalSubset (utf8 (qname p l)) [] []] ht' /\
  parseDocTypeDecl E S H (st (s_ "<!DOCTYPE" ++ b1 ++ qname p l ++ b2 ++ c :: r) tab nd ht z) =
    (Ret tt, st (if c =? 91 then c :: r else r) tab nd ht' (set_intSubName S (utf8 (qname p l)) z)).
Proof.
  intros b1 p l b2 c r tab nd ht z Hb1 Hb1' Hpl Hb2 Hc. set (z1 := set_intSubName S (utf8 (qname p l)) z).
  destruct (accept_quiet E S H known R (the_view S z1) ht (EInternalSubset (utf8 (qname p l)) [] [])) as (h1 & D1 & W1); [intros ? ? ? ? ?; discriminate|].
  exists h1. split; [exact W1|]. unfold parseDocTypeDecl. erewrite bind_ret by apply mconsume_st. cbn [negb].
  destruct (qname_head E p l (proj1 Hpl)) as (u & v & Eq & Hu).
  erewrite bind_ret by (apply mskip_st; [auto|rewrite Eq; apply (name_start_blank E OK u Hu)]).
  erewrite bind_ret.
  2:{ apply lift_st. unfold por_else. rewrite name_after; [reflexivity|auto|auto|]. exists c, r. split; [auto|]. apply delim_rest, Hc. }
  erewrite bind_ret by reflexivity.
  change (set_intSubName S (utf8 (qname p l)) (st (b2 ++ c :: r) tab nd ht z)) with (st (b2 ++ c :: r) tab nd ht z1).
  erewrite bind_ret by (apply mskip_st; [auto|destruct Hc as [->| ->]; reflexivity]).
  erewrite bind_ret by (apply emit_st; exact D1). erewrite bind_ret by apply mpeek_st. cbv beta.
  destruct Hc as [->| ->]; [change (62 =? 91) with false; change (62 =? 62) with true; apply madv1_st|reflexivity].
Qed.

Lemma dtd_end : forall name ds m e r n tab nd ht z, misc E m e -> nomisc r -> (List.length (m ++ r) < n)%nat ->
  attsSpecial z = rev (map special_entry (declared ds)) -> attsDefault z = flat_map default_entry (declared ds) -> intSubName z = name ->
  exists h1 ht', went (view_in (the_view S z) 2) ht [EExternalSubset name [] []] h1 /\ went (view_in (the_view S z) 0) h1 e ht' /\
  bind S (modify S (set_inSubset S 2)) (fun _ =>
  bind S (get S (@intSubName S)) (fun name =>
  bind S (emit S H (EExternalSubset name [] [])) (fun _ =>
  bind S (modify S (set_inSubset S 0)) (fun _ =>
  bind S (modify S (fun s => set_special S (filter (fun p => negb (snd p =? AttrCDATA)) (attsSpecial s)) s)) (fun _ =>
  wrap S (parseMisc E S H n)))))) (st (m ++ r) tab nd ht z) = (Ret tt, st r tab nd ht' (declared_state name ds z)).
Proof.
  intros name ds m e r n tab nd ht z Hm Hr Hn Z1 Z2 Z3.
  destruct (accept_quiet E S H known R (the_view S (set_inSubset S 2 z)) ht (EExternalSubset name [] [])) as (h1 & D1 & W1); [intros ? ? ? ? ?; discriminate|].
  destruct (deliver_quiet (the_view S (declared_state name ds z)) e h1 (misc_quiet m e Hm)) as (h2 & D2 & W2).
  exists h1, h2. split; [exact W1|]. split; [exact W2|].
  erewrite bind_ret by reflexivity. change (set_inSubset S 2 (st (m ++ r) tab nd ht z)) with (st (m ++ r) tab nd ht (set_inSubset S 2 z)).
  erewrite bind_ret by reflexivity. change (intSubName (st (m ++ r) tab nd ht (set_inSubset S 2 z))) with (intSubName z). rewrite Z3.
  erewrite bind_ret by (apply emit_st; exact D1). erewrite bind_ret by reflexivity. erewrite bind_ret by reflexivity.
  replace (set_special S _ _) with (st (m ++ r) tab nd h1 (declared_state name ds z)).
  2:{ unfold declared_state. rewrite <- Z1, <- Z2, <- Z3. destruct z; reflexivity. }
  apply wrap_ret. eapply (misc_st E OK S H (List.length m) m e); eauto.
Qed.

Lemma hd91 : forall l, hd 0 l <> 91 -> has_prefix (s_ "[") l = false.
Proof. intros [|c l] Hl; [reflexivity|]. cbn [hd] in Hl. cbn. destruct (Z.eqb_spec 91 c); [congruence|reflexivity]. Qed.
Lemma misc_head : forall m e r, misc E m e -> hd 0 r = 60 -> hd 0 (m ++ r) <> 91.
Proof.
  intros m e r Hm Hr. destruct Hm; cbn; try discriminate; [rewrite Hr; discriminate|].
  unfold blank in *. lia.
Qed.

Theorem doctype_st : forall x ds evs, doctype E x ds evs -> NoDup (map akey (declared ds)) -> NoDup (map fst (entities ds)) ->
  exists N name es, evs = EInternalSubset name [] [] :: es ++ [EExternalSubset name [] []] /\ forall m e r n tab nd ht z, misc E m e -> nomisc r -> hd 0 r = 60 -> (N <= n)%nat -> (List.length (m ++ r) < n)%nat ->
  attsSpecial z = [] -> attsDefault z = [] -> (forall n, In n (map fst (entities ds)) -> known (fst ht) (utf8 n) = None) ->
  exists h1 h2 ht' es', Forall2 same es es' /\ told (view_in (the_view S z) 1) ht (EInternalSubset name [] [] :: es') (entities ds) h1 /\
    went (view_in (the_view S z) 2) h1 [EExternalSubset name [] []] h2 /\ went (view_in (the_view S z) 0) h2 e ht' /\
    parseDTD E S H n (st (x ++ m ++ r) tab nd ht z) = (Ret tt, st r tab nd ht' (declared_state name ds z)).
Proof.
  intros x ds evs Hx Hnd Hne. destruct Hx as [b1 p l b2 Hb1 Hb1' Hpl Hb2|b1 p l b2 s b3 ds evs Hb1 Hb1' Hpl Hb2 Hs Hb3].
  - exists O, (utf8 (qname p l)), []. split; [reflexivity|]. intros m e r n tab nd ht z Hm Hr Hr60 _ Hn Z1 Z2 _. rewrite <- !app_assoc. cbn [app].
    unfold parseDTD. erewrite bind_ret by reflexivity.
    change (set_inSubset S 1 (st (s_ "<!DOCTYPE" ++ b1 ++ qname p l ++ b2 ++ 62 :: m ++ r) tab nd ht z))
      with (st (s_ "<!DOCTYPE" ++ b1 ++ qname p l ++ b2 ++ 62 :: m ++ r) tab nd ht (set_inSubset S 1 z)).
    destruct (doctype_start b1 p l b2 62 (m ++ r) tab nd ht (set_inSubset S 1 z) Hb1 Hb1' Hpl Hb2 (or_introl eq_refl)) as (h1 & W1 & P1).
    erewrite bind_ret by (apply wrap_ret; exact P1). change (62 =? 91) with false. cbv iota.
    set (z1 := set_intSubName S (utf8 (qname p l)) (set_inSubset S 1 z)).
    erewrite bind_ret.
    2:{ unfold mhas, lift, phas. cbn [st inp]. rewrite (hd91 _ (misc_head m e r Hm Hr60)). reflexivity. }
    cbv beta iota. erewrite bind_ret by reflexivity.
    destruct (dtd_end (utf8 (qname p l)) [] m e r n tab nd h1 z1 Hm Hr Hn) as (h2 & h3 & W2 & W3 & P2); auto.
    exists h1, h2, h3, []. split; [constructor|]. split; [apply (went_told E S H known); exact W1|]. split; [exact W2|]. split; [exact W3|].
    etransitivity; [exact P2|reflexivity].
  - destruct (subset_st E OK S H known R s ds evs Hs) as (N & P). exists N, (utf8 (qname p l)), evs. split; [reflexivity|].
    intros m e r n tab nd ht z Hm Hr Hr60 HN Hn Z1 Z2 Hk. rewrite <- !app_assoc. cbn [app].
    unfold parseDTD. erewrite bind_ret by reflexivity.
    match goal with |- context [st ?x tab nd ht z] => change (set_inSubset S 1 (st x tab nd ht z)) with (st x tab nd ht (set_inSubset S 1 z)) end.
    destruct (doctype_start b1 p l b2 91 (s ++ 93 :: b3 ++ 62 :: m ++ r) tab nd ht (set_inSubset S 1 z) Hb1 Hb1' Hpl Hb2 (or_intror eq_refl)) as (h1 & W1 & P1).
    erewrite bind_ret by (apply wrap_ret; exact P1). change (91 =? 91) with true. cbv iota.
    set (z1 := set_intSubName S (utf8 (qname p l)) (set_inSubset S 1 z)).
    erewrite bind_ret by reflexivity. cbv beta iota.
    assert (Ez : z1 = with_decls S [] z1) by (unfold with_decls; cbn [map rev flat_map]; rewrite <- Z1, <- Z2 at 1; unfold z1; destruct z; reflexivity).
    destruct (P n (93 :: b3 ++ 62 :: m ++ r) tab nd h1 z1 [] HN eq_refl (Forall_nil _) Hnd Hne) as (h2 & evs' & Hsm & Ht & P2).
    { intros k Hi. destruct W1 as (_ & W1 & _). rewrite W1. auto. }
    set (z2 := with_decls S ([] ++ declared ds) z1) in *. rewrite <- Ez in P2.
    erewrite bind_ret.
    2:{ apply wrap_ret. unfold parseInternalSubset. erewrite bind_ret by apply mpeek_st. change (91 =? 91) with true. cbn [negb]. cbv iota.
        erewrite bind_ret.
        2:{ erewrite bind_ret by apply madv1_st. erewrite bind_ret by exact P2. erewrite bind_ret by apply mpeek_st.
            change (93 =? 93) with true. cbv iota. erewrite bind_ret by apply madv1_st.
            erewrite bind_ret by (apply mskip_st; [exact Hb3|reflexivity]). reflexivity. }
        erewrite bind_ret by apply mpeek_st. change (62 =? 62) with true. cbn [negb]. cbv iota. apply madv1_st. }
    destruct (dtd_end (utf8 (qname p l)) ds m e r n tab nd h2 z2 Hm Hr Hn) as (h3 & h4 & W3 & W4 & P3); auto.
    exists h2, h3, h4, evs'. split; [exact Hsm|]. split; [|split; [exact W3|split; [exact W4|]]].
    + change (entities ds) with ([] ++ entities ds). apply (told_app E S H known _ _ [_] _ h1); [apply (went_told E S H known), W1|exact Ht|intros ? []].
    + etransitivity; [exact P3|reflexivity].
Qed.

(* ---- the document ---- *)
Lemma droot_st : forall ds (Hents : forall n t, In (n, t) (entities ds) -> ncname E n /\ legals t /\ ~ In n [s_ "lt"; s_ "gt"; s_ "amp"; s_ "apos"; s_ "quot"])
  k x evs d, delement E ds k true [] x evs d -> declared_once evs d ->
  exists N, forall n r nd ht z, (N <= n)%nat -> tables E S ds true z -> room S k z -> knows S known ds ht ->
  exists ht' evs', Forall2 same evs evs' /\ went (the_view S z) ht evs' ht' /\
    parseElement E S H n (parseContent E S H n) (st (x ++ r) [] nd ht z) = (Ret tt, st r d nd ht' z).
Proof.
  intros ds Hents k x evs d He [Hnd Hroot]. remember true as live eqn:El. remember (@nil (str * str)) as ns eqn:Ens.
  destruct He as [k live ns p l t a d u Hq Ht Hy Hr|k live ns p l t a d u s evs d1 Hq Ht Hy Hr Hc Hsl]; subst.
  - exists (Datatypes.S (List.length t)). intros n r nd ht z Hn Hta _ _.
    apply (empty_element E OK S H known R ds true [] p l t a d u Hq Ht Hy Hr n r [] nd ht z); auto; apply scoped_nil.
  - destruct (full_element E OK S H known R ds Hents k true [] p l t a d u s evs d1 Hq Ht Hy Hr) as (N & P); auto.
    { apply (dcontent_st E OK S H known R ds Hents), Hc. }
    exists N. intros n r nd ht z Hn Hta Hk Hkn. apply (P n r [] nd ht z); auto; [apply scoped_nil|].
    intros Hi. destruct Hroot as [v Hv]; [rewrite map_app; apply in_or_app; auto|].
    cbn [root_spaces find app] in Hv. apply in_map_iff in Hv as (y & Hy' & Hi'). inversion Hy'; subst.
    rewrite map_app in Hnd. apply (in_map fst) in Hi'. cbn [fst] in Hi'.
    clear - Hnd Hi Hi'. induction (map fst d) as [|w m IH]; [destruct Hi'|]. inversion Hnd; subst. destruct Hi' as [->|Hi'].
    + apply H1. apply in_or_app; auto.
    + auto.
Qed.

Lemma doctype_names : forall x ds evs, doctype E x ds evs ->
  Forall (good E) (declared ds) /\ (forall n t, In (n, t) (entities ds) -> ncname E n /\ legals t).
Proof.
  intros x ds e2 Hx0. destruct Hx0 as [|b1 p l b2 s b3 ds evs _ _ _ _ Hs _]; [split; [constructor|intros ? ? []]|].
  destruct (subset_names E OK s ds evs Hs) as (N1 & N2 & _). auto.
Qed.
Lemma parts_legal : forall m1 x0 m2 x m3 ds k e1 e2 e3 e4 e5 d, misc E m1 e1 -> doctype E x0 ds e2 -> misc E m2 e3 ->
  delement E ds k true [] x e4 d -> misc E m3 e5 -> legals (m1 ++ x0 ++ m2 ++ x ++ m3).
Proof.
  intros m1 x0 m2 x m3 ds k e1 e2 e3 e4 e5 d Hm1 Hx0 Hm2 Hx Hm3. destruct (doctype_names x0 ds e2 Hx0) as [_ Hn].
  apply legals_app; [exact (misc_legal E _ _ Hm1)|]. apply legals_app; [eapply doctype_legal; eauto|].
  apply legals_app; [exact (misc_legal E _ _ Hm2)|]. apply legals_app; [|exact (misc_legal E _ _ Hm3)].
  eapply delement_legal; eauto. intros n t Hi. apply (Hn n t Hi).
Qed.
Lemma drest_st : forall m1 x0 m2 x m3 ds e1 e2 e3 e4 e5 d, misc E m1 e1 -> doctype E x0 ds e2 -> misc E m2 e3 ->
  delement E ds max_entity_depth true [] x e4 d -> misc E m3 e5 -> fine ds -> declared_once e4 d ->
  exists N name es, e2 = EInternalSubset name [] [] :: es ++ [EExternalSubset name [] []] /\ forall n ht z, (N <= n)%nat -> (forall n, In n (map fst (entities ds)) -> known (fst ht) (utf8 n) = None) ->
  attsSpecial z = [] -> attsDefault z = [] -> depth z = 0 -> inSubset z = 0 ->
  exists h1 h2 h3 es' e4' s', Forall2 same es es' /\ Forall2 same e4 e4' /\
    rest E S H n (st (m1 ++ x0 ++ m2 ++ x ++ m3) [] [] ht z) = (Ret tt, s') /\
    map fst (tr s') = rev (EStartDocument :: (e1 ++ (EInternalSubset name [] [] :: es' ++ [EExternalSubset name [] []]) ++ e3 ++ e4' ++ e5) ++ [EEndDocument]) ++ map fst (snd ht) /\
    path E false H (the_view S z) (fst ht) (EStartDocument :: e1) h1 /\
    path E true H (view_in (the_view S z) 1) h1 (EInternalSubset name [] [] :: es') h2 /\
    path E false H (view_in (the_view S z) 2) h2 [EExternalSubset name [] []] h3 /\
    path E false H (the_view S z) h3 (e3 ++ e4' ++ e5 ++ [EEndDocument]) (hs s').
Proof.
  intros m1 x0 m2 x m3 ds e1 e2 e3 e4 e5 d Hm1 Hx0 Hm2 Hx Hm3 (F1 & F2 & F3) Hone.
  destruct (doctype_names x0 ds e2 Hx0) as [Hgood Hents0].
  assert (Hents : forall n t, In (n, t) (entities ds) -> ncname E n /\ legals t /\ ~ In n [s_ "lt"; s_ "gt"; s_ "amp"; s_ "apos"; s_ "quot"]).
  { intros n t Hi. destruct (Hents0 n t Hi) as [A1 A2]. split; [auto|]. split; [auto|]. apply F2. apply (in_map fst) in Hi. exact Hi. }
  destruct (doctype_st x0 ds e2 Hx0 F3 F1) as (N1 & name & es & Ee2 & P1).
  destruct (droot_st ds Hents max_entity_depth x e4 d Hx Hone) as (N2 & P2).
  destruct (delem_head E ds _ _ _ _ _ _ Hx) as (c & t & Hxc & Hc).
  destruct (name_start_facts E OK c Hc) as (C1 & C2 & C3 & C4 & C5 & C6 & C7).
  exists (N1 + N2 + 1 + List.length (m1 ++ x0 ++ m2 ++ x ++ m3))%nat, name, es. split; [exact Ee2|]. intros n ht z Hn Hk Z1 Z2 Z3 Z4.
  assert (Hno : nomisc (x ++ m3)) by (rewrite Hxc; apply nomisc_tag; auto).
  destruct (accept_quiet E S H known R (the_view S z) ht EStartDocument) as (h1 & D1 & W1); [intros ? ? ? ? ?; discriminate|].
  destruct (deliver_quiet (the_view S z) e1 h1 (misc_quiet m1 e1 Hm1)) as (h2 & D2 & W2).
  destruct (P1 m2 e3 (x ++ m3) n [] [] h2 z Hm2 Hno) as (ha & hb & h3 & es' & S3 & T3 & Wb & Wc & R3); auto.
  { rewrite Hxc. reflexivity. } { lia. } { rewrite !app_length in *. lia. }
  { intros k Hi. destruct W1 as (_ & W1 & _), W2 as (_ & W2 & _). rewrite W2, W1. auto. }
  set (z3 := declared_state name ds z) in *.
  destruct (P2 n m3 [] h3 z3) as (h4 & evs4 & S4 & W4 & R4).
  { lia. } { apply tables_declared, Hgood. } { unfold room. change (depth z3) with (depth z). rewrite Z3. unfold max_entity_depth. lia. }
  { intros k t0 Hi. destruct T3 as (_ & T3 & _), Wb as (_ & Wb & _), Wc as (_ & Wc & _). rewrite Wc, Wb. auto. }
  destruct (deliver_quiet (the_view S z3) e5 h4 (misc_quiet m3 e5 Hm3)) as (h5 & D5 & W5).
  destruct (accept_quiet E S H known R (the_view S z3) h5 EEndDocument) as (h6 & D6 & W6); [intros ? ? ? ? ?; discriminate|].
  exists (fst h2), (fst ha), (fst hb), es', evs4, (st [] d [] h6 z3).
  split; [exact S3|]. split; [exact S4|]. split; [|split].
  - unfold rest. erewrite bind_ret by (apply emit_st; exact D1).
    erewrite bind_ret.
    2:{ apply wrap_ret. eapply (misc_st E OK S H (List.length m1) m1 e1); eauto.
        - destruct Hx0; split; try reflexivity; split; reflexivity.
        - lia. }
    erewrite bind_ret.
    2:{ unfold mhas, lift, phas. cbn [Complete.st inp]. replace (has_prefix (s_ "<!DOCTYPE") (x0 ++ m2 ++ x ++ m3)) with true by (destruct Hx0; reflexivity). reflexivity. }
    cbv beta iota. match goal with |- context [set_inp S ?l (st ?a ?b ?c ?h ?y)] => change (set_inp S l (st a b c h y)) with (st a b c h y) | _ => idtac end.
    erewrite bind_ret by exact R3.
    destruct (mskip0_st S (x ++ m3) [] [] h3 z3) as [w Hw]; [rewrite Hxc; reflexivity|]. erewrite bind_ret by exact Hw.
    erewrite bind_ret by (eapply mpeek_eq; rewrite Hxc; reflexivity). change (60 =? 60) with true. cbn [negb].
    erewrite bind_ret. 2:{ apply wrap_ret. exact R4. }
    erewrite bind_ret.
    2:{ apply wrap_ret. rewrite <- (app_nil_r m3) at 1. apply (misc_st E OK S H (List.length m3) m3 e5 (le_n _) Hm3 n [] d [] h4 h5 z3 (conj I (conj eq_refl eq_refl))); [|exact D5].
        rewrite app_nil_r. rewrite !app_length in Hn. lia. }
    erewrite bind_ret by reflexivity. cbn [Complete.st inp done negb]. apply emit_st; auto.
  - destruct W1 as [W1 _], W2 as [W2 _], T3 as [T3 _], Wb as [Wb _], Wc as [Wc _], W4 as [W4 _], W5 as [W5 _], W6 as [W6 _].
    change (tr (st [] d [] h6 z3)) with (snd h6). rewrite W6, W5, W4, Wc, Wb, T3, W2, W1.
    do 4 (cbn [rev app]; repeat rewrite ?rev_app_distr, <- ?app_assoc). reflexivity.
  - assert (Ev : the_view S z3 = the_view S z) by (unfold the_view; rewrite Z4; reflexivity).
    assert (Ev0 : view_in (the_view S z) 0 = the_view S z) by (unfold the_view, view_in; cbn; rewrite Z4; reflexivity).
    rewrite Ev in *. rewrite Ev0 in *. change (hs (st [] d [] h6 z3)) with (fst h6).
    destruct W1 as (_ & _ & W1), W2 as (_ & _ & W2), T3 as (_ & _ & _ & T3), Wb as (_ & _ & Wb), Wc as (_ & _ & Wc), W4 as (_ & _ & W4), W5 as (_ & _ & W5), W6 as (_ & _ & W6).
    split; [apply (path_app _ _ S H _ _ [_] (fst h1)); assumption|]. split; [exact T3|]. split; [exact Wb|].
    eapply path_app; [exact Wc|]. eapply path_app; [exact W4|]. eapply path_app; [exact W5|exact W6].
Qed.

Lemma subset_no_start : forall s ds evs, subset E s ds evs -> forall l, find (fun e => match e with EStartElement _ _ _ _ _ => true | _ => false end) (evs ++ l) =
  find (fun e => match e with EStartElement _ _ _ _ _ => true | _ => false end) l.
Proof.
  intros s ds evs Hs l. induction Hs; cbn [app find]; auto. rewrite <- app_assoc.
  match goal with |- context [map ?f ?xs ++ _] => generalize xs end. intros xs. induction xs as [|y ys IHy]; [assumption|]. unfold attdef_event at 1. cbn [map app find]. exact IHy.
Qed.
Lemma once_droot : forall live ns m1 x0 m2 k x ds e1 e2 e3 e4 e5 d, misc E m1 e1 -> doctype E x0 ds e2 -> misc E m2 e3 ->
  delement E ds k live ns x e4 d -> declared_once (e1 ++ e2 ++ e3 ++ e4 ++ e5) d -> declared_once e4 d.
Proof.
  intros live ns m1 x0 m2 k x ds e1 e2 e3 e4 e5 d Hm1 Hx0 Hm2 Hx [H1 H2]. split; [auto|]. intros Hi. destruct (H2 Hi) as [u Hu]. exists u.
  unfold root_spaces in *. rewrite (misc_no_start E m1 e1 Hm1) in Hu.
  assert (E2 : find (fun e => match e with EStartElement _ _ _ _ _ => true | _ => false end) (e2 ++ e3 ++ e4 ++ e5) =
               find (fun e => match e with EStartElement _ _ _ _ _ => true | _ => false end) (e3 ++ e4 ++ e5)).
  { destruct Hx0 as [|b1 p l b2 s b3 ds evs _ _ _ _ Hs _]; cbn [app find]; [reflexivity|]. rewrite <- app_assoc.
    rewrite (subset_no_start s ds evs Hs). reflexivity. }
  rewrite E2, (misc_no_start E m2 e3 Hm2) in Hu. destruct Hx; cbn [app find] in *; auto.
Qed.

Definition runs_as (src : list Z) (i : docinfo) (ds : list decl) (evs : list event) (d : list (str * str)) : Prop :=
  exists N m1 x0 m2 x m3 e1 name es e3 e4 e5,
  misc E m1 e1 /\ doctype E x0 ds (EInternalSubset name [] [] :: es ++ [EExternalSubset name [] []]) /\ misc E m2 e3 /\
  delement E ds max_entity_depth true [] x e4 d /\ misc E m3 e5 /\
  evs = e1 ++ (EInternalSubset name [] [] :: es ++ [EExternalSubset name [] []]) ++ e3 ++ e4 ++ e5 /\
  forall bom n h, bom_ok bom -> (N <= n)%nat -> (forall n, In n (map fst (entities ds)) -> known h (utf8 n) = None) ->
  exists h0 h1 h2 h3 es' e4' s', Forall2 same es es' /\ Forall2 same e4 e4' /\ Parse E S H n h (bom ++ utf8 src) = (Ret tt, s') /\
    rev (map fst (tr s')) = ESetDocumentLocator :: EStartDocument ::
      (e1 ++ (EInternalSubset name [] [] :: es' ++ [EExternalSubset name [] []]) ++ e3 ++ e4' ++ e5) ++ [EEndDocument] /\
    path E false H view0 h [ESetDocumentLocator] h0 /\
    path E false H (docview i) h0 (EStartDocument :: e1) h1 /\
    path E true H (view_in (docview i) 1) h1 (EInternalSubset name [] [] :: es') h2 /\
    path E false H (view_in (docview i) 2) h2 [EExternalSubset name [] []] h3 /\
    path E false H (docview i) h3 (e3 ++ e4' ++ e5 ++ [EEndDocument]) (hs s').
Theorem ddocument_runs : forall src i ds evs d, ddocument E src i ds evs d -> declared_once evs d -> runs_as src i ds evs d.
Proof.
  intros src i ds evs d Hdoc Hone.
  assert (Fin : forall hdr m1 x0 m2 x m3 e1 e2 e3 e4 e5, misc E m1 e1 -> doctype E x0 ds e2 -> misc E m2 e3 ->
    delement E ds max_entity_depth true [] x e4 d -> misc E m3 e5 -> fine ds -> evs = e1 ++ e2 ++ e3 ++ e4 ++ e5 -> 
    (let body := m1 ++ x0 ++ m2 ++ x ++ m3 in
     hdr = [] /\ i = {| di_version := []; di_encoding := None; di_standalone := None |} /\ has_prefix (s_ "<?xml") (utf8 body) = false /\
     (exists c l, utf8 body = c :: l /\ (c = 60 \/ blank c = true) /\ hd 1 l <> 0)
     \/ xml_decl hdr (di_version i) (di_encoding i) (di_standalone i) /\ (forall n, di_encoding i = Some n -> utf8_name n)) ->
    legals (m1 ++ x0 ++ m2 ++ x ++ m3) ->
    runs_as (hdr ++ m1 ++ x0 ++ m2 ++ x ++ m3) i ds evs d).
  { intros hdr m1 x0 m2 x m3 e1 e2 e3 e4 e5 Hm1 Hx0 Hm2 Hx Hm3 Hf -> Hhdr Hleg.
    destruct (drest_st m1 x0 m2 x m3 ds e1 e2 e3 e4 e5 d Hm1 Hx0 Hm2 Hx Hm3 Hf) as (N & name & es & Ee2 & P).
    { eapply once_droot; [exact Hm1|exact Hx0|exact Hm2|exact Hx|exact Hone]. }
    exists N, m1, x0, m2, x, m3, e1, name, es, e3, e4, e5. rewrite <- Ee2.
    split; [exact Hm1|]. split; [exact Hx0|]. split; [exact Hm2|]. split; [exact Hx|]. split; [exact Hm3|]. split; [reflexivity|].
    intros bom n h Hbom Hn Hk.
    destruct (accept_quiet E S H known R view0 (h, []) ESetDocumentLocator) as (h0 & D1 & W1 & W1' & W1''); [intros ? ? ? ? ?; discriminate|].
    destruct (P n h0 (zof S i h (bom ++ utf8 (hdr ++ m1 ++ x0 ++ m2 ++ x ++ m3)))) as (h1 & h2 & h3 & es' & e4' & s' & F & F4 & Hp & Ht & Q1 & Q2 & Q3 & Q4); auto.
    { intros k Hi. rewrite W1'. apply Hk, Hi. }
    exists (fst h0), h1, h2, h3, es', e4', s'. split; [auto|]. split; [auto|]. split.
    { rewrite (parseDocument_eq E OK S H hdr _ i bom n h h0 Hbom D1 (legals_valid _ Hleg) Hhdr). exact Hp. }
    split; [rewrite Ht, W1, rev_app_distr, rev_involutive; reflexivity|]. split; [exact W1''|].
    split; [exact Q1|]. split; [exact Q2|]. split; [exact Q3|exact Q4]. }
  destruct Hdoc as [m1 x0 m2 x m3 ds e1 e2 e3 e4 e5 d Hm1 Hx0 Hm2 Hx Hm3 Hf Hnx|hdr v enc sa m1 x0 m2 x m3 ds e1 e2 e3 e4 e5 d Hdecl Henc Hm1 Hx0 Hm2 Hx Hm3 Hf].
  - change (m1 ++ x0 ++ m2 ++ x ++ m3) with ([] ++ m1 ++ x0 ++ m2 ++ x ++ m3).
    assert (Hleg : legals (m1 ++ x0 ++ m2 ++ x ++ m3)).
    { eapply parts_legal; eauto. }
    eapply (Fin [] m1 x0 m2 x m3 e1 e2 e3 e4 e5); eauto. left. split; [auto|]. split; [auto|].
    assert (Hb : exists c l, m1 ++ x0 ++ m2 ++ x ++ m3 = c :: l /\ (c = 60 \/ blank c = true)).
    { destruct Hm1; cbn [app]; [|eauto|eexists 60, _; split; [reflexivity|auto]..]. destruct Hx0; eexists 60, _; split; try reflexivity; auto. }
    split.
    + destruct (has_prefix (s_ "<?xml") (utf8 (m1 ++ x0 ++ m2 ++ x ++ m3))) eqn:Hp; [|reflexivity]. exfalso.
      apply prefix_utf8 in Hp; [|repeat constructor; lia].
      destruct Hm1; cbn [app] in Hp.
      * destruct Hx0; discriminate.
      * cbn in Hp. unfold blank in H0. destruct (Z.eqb_spec 60 c); [lia|discriminate].
      * discriminate.
      * apply prefix_split in Hp; [destruct Hp as [r Hp]; apply (Hnx r); auto|]. rewrite !app_length. lens.
        destruct t as [|w t]; [destruct H0 as [[[] _] _]|cbn; lia].
      * apply prefix_split in Hp; [destruct Hp as [r Hp]; apply (Hnx r); auto|]. rewrite !app_length. lens.
        destruct t as [|w t]; [destruct H0 as [[[] _] _]|cbn; lia].
    + destruct Hb as (c & l & Heq & Hc). rewrite Heq in *. exists c, (utf8 l).
      split; [unfold utf8; cbn [flat_map]; rewrite encode_ascii by (unfold blank in Hc; lia); reflexivity|].
      split; [auto|]. intros H0. destruct (utf8 l) as [|b w] eqn:Hu; [discriminate H0|]. cbn in H0. subst b.
      assert (Hi : In 0 (utf8 l)) by (rewrite Hu; left; auto). apply utf8_In_ascii in Hi; [|lia].
      inversion Hleg as [|? ? _ Hl']; subst. unfold legals in Hl'. rewrite Forall_forall in Hl'. apply Hl' in Hi. discriminate.
  - eapply (Fin hdr m1 x0 m2 x m3 e1 e2 e3 e4 e5); eauto.
    eapply parts_legal; eauto.
Qed.
Theorem ddocument_events : forall src i ds evs d, ddocument E src i ds evs d -> declared_once evs d ->
  exists N, forall bom n h, bom_ok bom -> (N <= n)%nat -> (forall n, In n (map fst (entities ds)) -> known h (utf8 n) = None) ->
  exists evs' s', Forall2 same evs evs' /\ Parse E S H n h (bom ++ utf8 src) = (Ret tt, s') /\
    rev (map fst (tr s')) = ESetDocumentLocator :: EStartDocument :: evs' ++ [EEndDocument].
Proof.
  intros src i ds evs d Hdoc Hone.
  destruct (ddocument_runs src i ds evs d Hdoc Hone) as (N & m1 & x0 & m2 & x & m3 & e1 & name & es & e3 & e4 & e5 & _ & _ & _ & _ & _ & -> & P).
  exists N. intros bom n h Hbom Hn Hk. destruct (P bom n h Hbom Hn Hk) as (h0 & h1 & h2 & h3 & es' & e4' & s' & F & F4 & Hp & Ht & _).
  eexists. exists s'. split; [|split; [exact Hp|exact Ht]]. apply Forall2_app; [apply same_refl|]. apply Forall2_app.
  - constructor; [apply sm_refl|]. apply Forall2_app; [exact F|apply same_refl].
  - apply Forall2_app; [apply same_refl|]. apply Forall2_app; [exact F4|apply same_refl].
Qed.
End P.

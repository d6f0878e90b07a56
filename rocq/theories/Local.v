(* Consequences of the proofs about the parser's functions in the form the
   final statements use: what one production delivers in any state, and what
   the event sequence of a whole run looks like. *)
From Verif Require Import Base Utf8 Utf8Proofs XmlSpec Encoding Scan Parser ScanProofs Effects DocEffects LexProofs Grammar
  TextProofs Complete DocComplete Wrapped Legal.
From Coq Require Import ZifyBool.
Local Open Scope Z_scope.

(* ---- specification: a function that reads what precedes [rest] and
   delivers exactly the events [evs], in this order ---- *)
Definition delivers {S} (m : M S unit) (s : pst S) (rest : list Z) (evs : list event) : Prop :=
  exists s', m s = (Ret tt, s') /\ inp s' = rest /\ map fst (tr s') = rev evs ++ map fst (tr s).

(* blank character data is ignorable inside an element when the element is
   known not to have mixed content or, when nothing is known of it, when markup
   follows *)
Definition ignorable (inElement : bool) (mixed : option bool) (next : list Z) : bool :=
  inElement && match mixed with Some m => negb m | None => hd 0 next =? 60 end.

Lemma eol_total : forall t, exists t', eol t t'.
Proof.
  intros t. remember (List.length t) as n. revert t Heqn. induction n as [n IH] using (well_founded_induction lt_wf). intros t ->.
  destruct t as [|c t]; [exists []; constructor|].
  destruct (Z.eqb_spec c 13) as [->|Hc].
  - destruct t as [|d t].
    + exists [13]. constructor; [cbn; congruence|constructor].
    + destruct (Z.eqb_spec d 10) as [->|Hd].
      * destruct (IH (List.length t)) with (t := t) as [t' Ht]; [cbn; lia|auto|]. exists (10 :: t'). constructor; auto.
      * destruct (IH (List.length (d :: t))) with (t := d :: t) as [t' Ht]; [cbn; lia|auto|]. exists (13 :: t'). constructor; auto.
  - destruct (IH (List.length t)) with (t := t) as [t' Ht]; [cbn; lia|auto|]. exists (c :: t'). constructor; auto; congruence.
Qed.
Lemma crlf_eol : forall t, eol t (crlf t).
Proof. intros t. destruct (eol_total t) as [t' Ht]. rewrite <- (eol_crlf_eq _ _ Ht). auto. Qed.

(* the first double hyphen of a text *)
Lemma first_hyphens : forall l, contains (s_ "--") l -> exists b r, l = b ++ s_ "--" ++ r /\ ~ contains (s_ "--") b /\ (b = [] \/ last b 0 <> 45).
Proof.
  induction l as [|c l IH]; intros (x & y & Hl); [destruct x; discriminate|].
  destruct (has_prefix (s_ "--") (c :: l)) eqn:Hp.
  - apply has_prefix_true in Hp as (r & Hr). exists [], r. split; [exact Hr|]. split; [|auto]. intros (u & w & Hu). destruct u; discriminate.
  - destruct IH as (b & r & -> & Hb & Hlast).
    { destruct x as [|z x]; [exfalso; cbn [app] in Hl; rewrite Hl in Hp; discriminate Hp|].
      cbn [app] in Hl. inversion Hl. exists x, y. reflexivity. }
    exists (c :: b), r. split; [reflexivity|]. split.
    + intros (u & w & Hu). destruct u as [|z u]; cbn [app] in Hu; inversion Hu.
      * subst. discriminate Hp.
      * apply Hb. exists u, w. auto.
    + right. destruct b as [|d b].
      * cbn [last]. intros ->. discriminate Hp.
      * destruct Hlast as [|Hlast]; [discriminate|]. exact Hlast.
Qed.
Lemma comment_inv : forall E l v l', env_ok E -> legals l -> contains (s_ "-->") l ->
  scanComment E (s_ "<!--" ++ l) = (Ret v, l') -> exists b, l = b ++ s_ "-->" ++ l' /\ comment_text b /\ eol b (crlf b) /\ v = utf8 (crlf b).
Proof.
  intros E l v l' OK Hl (x & y & Hxy) Hs.
  destruct (first_hyphens l) as (b & r & -> & Hb1 & Hb2). { exists x, (62 :: y). rewrite Hxy. reflexivity. }
  unfold legals in Hl. rewrite !Forall_app in Hl. destruct Hl as (Hlb & _ & Hlr).
  assert (Hct : comment_text b) by (split; [auto|split; auto]).
  destruct r as [|c r].
  - exfalso. rewrite app_nil_r in Hxy. assert (Hlen : List.length (b ++ s_ "--") = List.length (x ++ s_ "-->" ++ y)) by congruence.
    rewrite !app_length in Hlen. cbn [List.length s_ list_ascii_of_string map] in Hlen.
    change (List.length (s_ "--")) with 2%nat in Hlen. change (List.length (s_ "-->")) with 3%nat in Hlen.
    destruct y as [|y0 y].
    { rewrite app_nil_r in Hxy. change (s_ "--") with ([45] ++ [45]) in Hxy. change (s_ "-->") with ([45; 45] ++ [62]) in Hxy.
      rewrite !app_assoc in Hxy. apply app_inj_tail in Hxy as [_ Hxy]. discriminate. }
    apply Hb1. exists x. cbn [List.length] in Hlen.
    assert (Hf : firstn (List.length b) (b ++ s_ "--") = firstn (List.length b) ((x ++ s_ "--") ++ 62 :: y0 :: y)).
    { rewrite Hxy. f_equal. rewrite <- app_assoc. reflexivity. }
    rewrite firstn_app, firstn_all, Nat.sub_diag in Hf. cbn [firstn] in Hf. rewrite app_nil_r in Hf.
    rewrite firstn_app in Hf. rewrite (firstn_all2 (x ++ s_ "--")) in Hf.
    2:{ rewrite app_length. change (List.length (s_ "--")) with 2%nat. lia. }
    eexists. rewrite Hf at 1. rewrite <- app_assoc. reflexivity.
  - inversion Hlr as [|? ? Hc Hr]; subst. destruct (Z.eqb_spec c 62) as [->|Hc62].
    + change (s_ "--" ++ 62 :: r) with (s_ "-->" ++ r) in Hs. rewrite (scanComment_text E b r Hct) in Hs. inversion Hs; subst.
      exists b. split; [reflexivity|]. split; [auto|]. split; [apply crlf_eol|reflexivity].
    + exfalso. pose proof (scanComment_bad E b c r (comment_text_body b Hct)) as X.
      rewrite Hs in X. cbn [fst] in X. assert (Hdisc : @Ret gerr str v = Fail (PErr (Plain "ErrHyphenInComment"))); [|discriminate].
      apply X; [apply legals_is; auto|rewrite <- legal_is; auto|auto].
Qed.

Lemma nameRest_class : forall E, env_ok E -> forall x, nameRest E x = isLetter E x || isDigit E x || (x =? 46) || (x =? 45) || (x =? 95) || (x =? 58).
Proof.
  intros E OK x. unfold nameRest.
  destruct (Z.eqb_spec x 0) as [->|H0]; [rewrite (ok_letter E OK), (ok_digit E OK) by lia; reflexivity|].
  destruct (Z.eqb_spec x 32) as [->|H1]; [rewrite (ok_letter E OK), (ok_digit E OK) by lia; reflexivity|].
  destruct (Z.eqb_spec x 62) as [->|H2]; [rewrite (ok_letter E OK), (ok_digit E OK) by lia; reflexivity|].
  destruct (Z.eqb_spec x 47) as [->|H3]; [rewrite (ok_letter E OK), (ok_digit E OK) by lia; reflexivity|].
  reflexivity.
Qed.

Section L.
Variable E : env.
Hypothesis OK : env_ok E.
Variable S : Type.
Variable H : handler S.
Hypothesis HA : accepts S H.

Lemma st_self : forall s : pst S, s = st S (inp s) (nsTab s) (nodeTab s) (hs s, tr s) s.
Proof. intros []; reflexivity. Qed.
Lemma delivers_st : forall (m : M S unit) s l rest evs, inp s = l ->
  (forall ht', deliver S H (the_view S s) (hs s, tr s) evs = Some ht' ->
    exists tab nd, m (st S l (nsTab s) (nodeTab s) (hs s, tr s) s) = (Ret tt, st S rest tab nd ht' s)) ->
  delivers m s rest evs.
Proof.
  intros m s l rest evs Hl Hm.
  destruct (deliver_accepts S H HA (the_view S s) evs (hs s, tr s)) as (ht' & Hd & Ht).
  destruct (Hm ht' Hd) as (tab & nd & He). eexists. split.
  - rewrite (st_self s) at 1. rewrite Hl. exact He.
  - cbn [st inp tr]. auto.
Qed.

Lemma comment_delivered : forall s b b' rest, inp s = s_ "<!--" ++ b ++ s_ "-->" ++ rest -> comment_text b -> eol b b' ->
  delivers (parseComment E S H) s rest [EComment (utf8 b')].
Proof.
  intros s b b' rest Hi Hb He. eapply delivers_st; [exact Hi|]. intros ht' Hd. rewrite (eol_crlf_eq _ _ He) in *.
  do 2 eexists. apply parseComment_st; eauto.
Qed.
Lemma pi0_delivered : forall s t rest, inp s = s_ "<?" ++ t ++ s_ "?>" ++ rest -> pitarget E t ->
  delivers (parsePI E S H) s rest [EProcessingInstruction (utf8 t) []].
Proof. intros s t rest Hi Ht. eapply delivers_st; [exact Hi|]. intros ht' Hd. do 2 eexists. apply parsePI_st0; eauto. Qed.
Lemma pi_delivered : forall s t b x rest, inp s = s_ "<?" ++ t ++ b ++ x ++ s_ "?>" ++ rest -> pitarget E t ->
  b <> [] -> blanks b -> pidata x ->
  delivers (parsePI E S H) s rest [EProcessingInstruction (utf8 t) (utf8 x)].
Proof. intros s t b x rest Hi Ht Hb1 Hb2 Hx. eapply delivers_st; [exact Hi|]. intros ht' Hd. do 2 eexists. apply parsePI_st; eauto. Qed.
Lemma cdata_delivered : forall s b b' rest, inp s = s_ "<![CDATA[" ++ b ++ s_ "]]>" ++ rest -> cdata_text b -> eol b b' ->
  delivers (parseCDSect E S H) s rest [ECDataBlock (utf8 b')].
Proof.
  intros s b b' rest Hi Hb He. eapply delivers_st; [exact Hi|]. intros ht' Hd. rewrite (eol_crlf_eq _ _ He) in *.
  do 2 eexists. apply parseCDSect_st; eauto.
Qed.

(* character data: one event; which one, for blank text *)
Lemma chardata_delivered : forall s t t' rest, inp s = t ++ rest -> text_run t -> starts_markup rest -> eol t t' ->
  delivers (parseCharData E S H false) s rest
    [if forallb blank t' && ignorable (negb (Nat.eqb (List.length (nodeTab s)) 0))
          (match nodeTab s with [] => None | e :: _ => h_mixed H (hs s) (nodeName e) end) rest
     then EIgnorableWhitespace (utf8 t') else ECharacters (utf8 t')].
Proof.
  intros s t t' rest Hi Ht Hm He. eapply delivers_st; [exact Hi|]. intros ht' Hd. rewrite (eol_crlf_eq _ _ He) in *.
  exists (nsTab s), (nodeTab s). unfold parseCharData.
  rewrite (bind_ret _ _ _ _ _ _ _ _ (lift_st S _ (scanCharData E false) _ _ _ _ _ _ _ (scanCharData_text E OK t rest Ht Hm))).
  set (b := match fst (areBlanks E S H (utf8 (crlf t)) (st S rest (nsTab s) (nodeTab s) (hs s, tr s) s)) with Ret x => x | _ => false end).
  assert (Hb : areBlanks E S H (utf8 (crlf t)) (st S rest (nsTab s) (nodeTab s) (hs s, tr s) s) =
    (Ret b, st S rest (nsTab s) (nodeTab s) (hs s, tr s) s)) by reflexivity.
  rewrite (bind_ret _ _ _ _ _ _ _ _ Hb).
  match type of Hd with context [if ?x then _ else _] => assert (Hbx : b = x) end.
  { subst b. cbn [areBlanks fst st nodeTab hs inp]. unfold ignorable.
    assert (Hbl : forallb isBlankCh (utf8 (crlf t)) = forallb blank (crlf t)).
    { assert (Hlx : legals (crlf t)) by (apply Legal.Forall_crlf; apply Ht). clear - Hlx. induction (crlf t) as [|c w IH]; [reflexivity|].
      inversion Hlx as [|? ? Hc Hw]; subst. cbn [utf8 flat_map forallb]. rewrite forallb_app. fold (utf8 w). rewrite IH by auto.
      f_equal. unfold legal, xml_char in Hc. unfold encode_rune.
      assert (Hv : valid_rune c = true) by (unfold valid_rune; lia). rewrite Hv.
      rewrite blank_is. unfold enc_raw. destruct (Z.ltb_spec c 128); [cbn [forallb]; apply andb_true_r|].
      assert (isBlankCh c = false) as -> by (unfold isBlankCh; lia).
      destruct (c <? 2048) eqn:?; [|destruct (c <? 65536) eqn:?]; cbn [forallb];
        match goal with |- isBlankCh ?x && _ = _ => replace (isBlankCh x) with false; [reflexivity|] end;
        symmetry; unfold isBlankCh; Z.div_mod_to_equations; lia. }
    rewrite Hbl. destruct (forallb blank (crlf t)); [|reflexivity]. cbn [negb].
    destruct (nodeTab s) as [|e nd]; [reflexivity|]. cbn [List.length Nat.eqb negb andb].
    destruct (h_mixed H (hs s) (nodeName e)); [reflexivity|].
    destruct Hm as [->|Hm].
    - cbn. destruct (ok_eofr E OK) as [-> | ->]; reflexivity.
    - destruct rest as [|c w]; cbn [peek hd] in *; [lia|]. destruct Hm as [-> | ->]; reflexivity. }
  rewrite Hbx. match type of Hbx with _ = ?x => destruct x end; apply emit_st; auto.
Qed.

Lemma blanks_delivered : forall s t t' rest, inp s = t ++ rest -> t <> [] -> blanks t -> starts_markup rest -> eol t t' ->
  delivers (parseCharData E S H false) s rest
    [if ignorable (negb (Nat.eqb (List.length (nodeTab s)) 0))
          (match nodeTab s with [] => None | e :: _ => h_mixed H (hs s) (nodeName e) end) rest
     then EIgnorableWhitespace (utf8 t') else ECharacters (utf8 t')].
Proof.
  intros s t t' rest Hi Hne Hb Hm He.
  assert (Hb' : forallb blank t' = true).
  { clear - Hb He. induction He; [reflexivity| |]; apply Forall_cons_iff in Hb; destruct Hb as [B0 B1]; cbn [forallb];
      [apply Forall_cons_iff in B1; destruct B1 as [_ B2]; rewrite IHHe; auto|rewrite B0; auto]. }
  assert (Ht : text_run t).
  { unfold blanks in Hb. rewrite Forall_forall in Hb. split; [auto|].
    split; [unfold legals; rewrite Forall_forall; intros x Hx; apply Hb in Hx; unfold blank in Hx; unfold legal, xml_char; lia|].
    split; [intros Hx; apply Hb in Hx; discriminate|]. split; [intros Hx; apply Hb in Hx; discriminate|].
    intros (x & y & Hx). assert (Hi93 : In 93 t) by (rewrite Hx; apply in_or_app; right; left; reflexivity). apply Hb in Hi93. discriminate. }
  pose proof (chardata_delivered s t t' rest Hi Ht Hm He) as X. rewrite Hb' in X. exact X.
Qed.

(* the value reported for an attribute *)
Lemma attribute_value : forall s n nm p l e1 e2 q lit v rest,
  inp s = qname p l ++ e1 ++ [61] ++ e2 ++ [q] ++ lit ++ [q] ++ rest ->
  qnamed E p l -> blanks e1 -> blanks e2 -> q = 34 \/ q = 39 -> attlit q lit v -> attsSpecial s = [] -> (List.length lit < n)%nat ->
  exists s', parseAttribute E S H n nm s = (Ret (utf8 l, utf8 p, v), s') /\ inp s' = rest /\ tr s' = tr s.
Proof.
  intros s n nm p l e1 e2 q lit v rest Hi Hq He1 He2 Hqq Hl Hs Hn. eexists. split.
  - rewrite (st_self s) at 1. rewrite Hi. apply parseAttribute_st; auto.
  - auto.
Qed.

(* numeric references in content *)
Lemma charref_delivered : forall s K hex b v rest, inp s = refPrefix hex ++ b -> refNumber hex b = Some (v, rest) -> 0 <= v < 2147483648 ->
  if legal v then delivers (parseReference E S H K) s rest [ECharacters (utf8 [v])]
  else exists e, fst (parseReference E S H K s) = Fail e.
Proof.
  intros s K hex b v rest Hi Hn Hv. pose proof (charref_value E hex b v rest Hn) as Hc. rewrite int32_small in Hc by lia.
  assert (Hl : legal v = isChar v) by (unfold legal; rewrite isChar_spec; reflexivity). rewrite Hl.
  assert (Hh : exists t, refPrefix hex ++ b = 38 :: 35 :: t) by (destruct hex; eexists; reflexivity). destruct Hh as (t & Ht).
  rewrite Ht in *.
  destruct (isChar v).
  - eapply delivers_st; [exact Hi|]. intros ht' Hd. do 2 eexists. unfold parseReference.
    erewrite bind_ret by apply mpeek_st. rewrite Z.eqb_refl. cbn [negb].
    erewrite bind_ret. 2:{ apply lift_st. unfold ppeekn, peekn. cbn [pred]. reflexivity. }
    cbn [nth]. rewrite Z.eqb_refl.
    erewrite bind_ret. 2:{ apply wrap_ret, lift_st. exact Hc. }
    replace (encode_rune v) with (utf8 [v]) by apply app_nil_r. apply emit_st; eauto.
  - exists (ctx_error (Plain "ErrInvalidChar")). rewrite (st_self s), Hi. unfold parseReference.
    erewrite bind_ret by apply mpeek_st. rewrite Z.eqb_refl. cbn [negb].
    erewrite bind_ret. 2:{ apply lift_st. unfold ppeekn, peekn. cbn [pred]. reflexivity. }
    cbn [nth]. rewrite Z.eqb_refl.
    unfold bind at 1, wrap at 1. rewrite (lift_st S _ (parseCharRef E) _ _ _ _ _ _ _ Hc). reflexivity.
Qed.
(* a start tag where the bindings ns are in scope and the table holds them *)
Lemma starttag_delivered : forall s n p l t a d u ns (e : bool) rest,
  inp s = s_ "<" ++ qname p l ++ t ++ (if e then s_ "/>" else s_ ">") ++ rest ->
  qnamed E p l -> atts E t a d -> scoped ns (nsTab s) -> NoDup (map fst (nsTab s ++ d)) ->
  resolves (rev d ++ ns) (utf8 p) u -> attsSpecial s = [] -> attsDefault s = [] -> (List.length t < n)%nat ->
  delivers (parseStartTag E S H n) s (if e then s_ "/>" ++ rest else rest)
    [EStartElement (utf8 l) (utf8 p) u (map Some d) a].
Proof.
  intros s n p l t a d u ns e rest Hi Hq Ht Hs Hnd Hr H1 H2 Hn. eapply delivers_st; [exact Hi|]. intros ht' Hd. do 2 eexists.
  pose proof (parseStartTag_st E OK S H n p l t a d u ns e rest (nsTab s) (nodeTab s) (hs s, tr s) ht' s Hq Ht Hr Hs Hnd H1 H2 Hn Hd) as X.
  destruct e; exact X.
Qed.

(* the end tag of an element in whatever state *)
Lemma endtag_inv : forall s s', parseEndTag E S H s = (Ret tt, s') ->
  exists top rest, nodeTab s = top :: rest /\
    (inp s = s_ "/>" ++ inp s' \/ inp s = s_ "</" ++ runes_of (nodeName top) ++ s_ ">" ++ inp s').
Proof.
  intros s s' Hp. unfold parseEndTag in Hp. unfold bind at 1 in Hp. unfold mconsume at 1, lift at 1, pconsume at 1 in Hp.
  assert (Hem : forall l p u (s1 s2 : pst S), bind S (emit S H (EEndElement l p u)) (fun _ => modify S (fun z => set_nodeTab S (tl (nodeTab z)) z)) s1 = (Ret tt, s2) -> inp s2 = inp s1).
  { intros l p u s1 s2 Hx. unfold bind, emit, wrap, emit_raw, modify in Hx.
    destruct (h_event H (hs s1) (the_view S s1) (EEndElement l p u)) as [h' a]. destruct a; cbn in Hx; inversion Hx; reflexivity. }
  destruct (has_prefix (s_ "/>") (inp s)) eqn:H1.
  - apply has_prefix_true in H1 as (l & Hl). unfold bind at 1, get at 1 in Hp.
    change (nodeTab (set_inp S _ s)) with (nodeTab s) in Hp. destruct (nodeTab s) as [|[[l0 p0] u0] nd] eqn:Hn; [discriminate|].
    exists (l0, p0, u0), nd. split; [auto|]. left. unfold bind at 1 in Hp. cbn [ret] in Hp. apply Hem in Hp. rewrite Hp.
    rewrite Hl. cbn [set_inp inp]. rewrite skipn_app, skipn_all, Nat.sub_diag. reflexivity.
  - unfold bind at 1, get at 1 in Hp. change (nodeTab (set_inp S _ s)) with (nodeTab s) in Hp.
    unfold bind at 1 in Hp. unfold bind at 1 in Hp. unfold mconsume at 1, lift at 1, pconsume at 1 in Hp. cbn [set_inp inp] in Hp.
    destruct (has_prefix (s_ "</") (inp s)) eqn:H2; [|discriminate Hp].
    apply has_prefix_true in H2 as (l & Hl). cbn [negb] in Hp.
    destruct (nodeTab s) as [|[[l0 p0] u0] nd] eqn:Hn; [discriminate Hp|]. exists (l0, p0, u0), nd. split; [auto|]. right.
    rewrite Hl in Hp. rewrite skipn_app, skipn_all, Nat.sub_diag in Hp. cbn [skipn app] in Hp.
    unfold bind at 1 in Hp. unfold mconsume at 1, lift at 1, pconsume at 1 in Hp. cbn [set_inp inp] in Hp.
    destruct (has_prefix (runes_of (nodeName (l0, p0, u0))) l) eqn:H3; [|discriminate Hp].
    apply has_prefix_true in H3 as (l2 & Hl2). rewrite Hl2 in Hp. rewrite skipn_app, skipn_all, Nat.sub_diag in Hp. cbn [negb skipn app] in Hp.
    unfold bind at 1 in Hp. unfold mpeek at 1, lift at 1, ppeek at 1 in Hp. cbn [set_inp inp] in Hp.
    destruct (negb (peek E l2 =? 62)) eqn:H4; [discriminate Hp|].
    destruct l2 as [|c l2]; [cbn in H4; destruct (ok_eofr E OK) as [Hq|Hq]; rewrite Hq in H4; discriminate|].
    cbn [peek hd] in H4. assert (c = 62) by lia. subst c.
    unfold madvance, lift, padvance in Hp. cbn [set_inp inp] in Hp. rewrite advance_1 in Hp. apply Hem in Hp.
    rewrite Hp, Hl, Hl2. reflexivity.
Qed.
End L.

(* ---- the shape of the event sequence ---- *)
(* start and end events only *)
Definition is_tag (e : event) : bool := match e with EStartElement _ _ _ _ _ | EEndElement _ _ _ => true | _ => false end.
Definition is_start (e : event) : bool := match e with EStartElement _ _ _ _ _ => true | _ => false end.
Definition is_end (e : event) : bool := match e with EEndElement _ _ _ => true | _ => false end.
Inductive matched : list event -> Prop :=
| m_none : matched []
| m_pair l p u ns a inner rest : matched inner -> matched rest ->
    matched (EStartElement l p u ns a :: inner ++ EEndElement l p u :: rest).
Definition starts (evs : list event) : nat := List.length (filter is_start evs).
Definition ends (evs : list event) : nat := List.length (filter is_end evs).

Definition opened (ph : phase) : list node := match ph with PRoot o => o | _ => [] end.
Lemma node_eqb_eq : forall a b, node_eqb a b = true -> a = b.
Proof.
  intros [[l p] u] [[l' p'] u'] Hn. cbn in Hn. apply andb_true_iff in Hn as [Hn H3]. apply andb_true_iff in Hn as [H1 H2].
  apply str_eqb_eq in H1, H2, H3. congruence.
Qed.
Lemma dstep_opened : forall ph e q, dstep ph e = Some q ->
  match e with
  | EStartElement l p u _ _ => opened q = (l, p, u) :: opened ph
  | EEndElement l p u => opened ph = (l, p, u) :: opened q
  | _ => opened q = opened ph
  end.
Proof.
  intros ph e q Hd. destruct ph; destruct e; cbn in Hd; try discriminate; try (inversion Hd; reflexivity);
    try (destruct open as [|top rest]; inversion Hd; reflexivity).
  destruct open as [|top rest]; [discriminate|]. destruct (node_eqb top (local, prefix, uri)) eqn:Hn; [|discriminate].
  apply node_eqb_eq in Hn. subst top. inversion Hd; subst. destruct rest; reflexivity.
Qed.
Lemma drun_count : forall evs ph q, drun ph evs = Some q ->
  (List.length (opened ph) + starts evs = ends evs + List.length (opened q))%nat.
Proof.
  unfold starts, ends. induction evs as [|e evs IH]; intros ph q Hd; cbn [drun] in Hd.
  - inversion Hd; subst. cbn. lia.
  - destruct (dstep ph e) as [p1|] eqn:Hs; [|discriminate]. specialize (IH _ _ Hd). pose proof (dstep_opened _ _ _ Hs) as Ho.
    destruct e; cbn [filter is_start is_end List.length]; try (rewrite Ho in IH; lia); rewrite Ho in *; cbn [List.length] in *; lia.
Qed.
Fixpoint unwinds (stk : list node) (l : list event) : Prop :=
  match stk with
  | [] => matched l
  | (a, p, u) :: stk' => exists m r, l = m ++ EEndElement a p u :: r /\ matched m /\ unwinds stk' r
  end.
Lemma unwinds_start : forall stk l p u ns a evs, unwinds ((l, p, u) :: stk) evs -> unwinds stk (EStartElement l p u ns a :: evs).
Proof.
  intros stk l p u ns a evs (m & r & -> & Hm & Hr). destruct stk as [|[[l0 p0] u0] stk]; cbn [unwinds] in *.
  - constructor; auto.
  - destruct Hr as (m1 & r1 & -> & Hm1 & Hr1). exists (EStartElement l p u ns a :: m ++ EEndElement l p u :: m1), r1.
    split; [cbn [app]; rewrite <- app_assoc; reflexivity|]. split; [constructor; auto|auto].
Qed.
Lemma drun_unwinds : forall evs ph, drun ph evs = Some PEnded -> unwinds (opened ph) (filter is_tag evs).
Proof.
  induction evs as [|e evs IH]; intros ph Hd; cbn [drun] in Hd.
  - inversion Hd; subst. constructor.
  - destruct (dstep ph e) as [p1|] eqn:Hs; [|discriminate]. specialize (IH _ Hd). pose proof (dstep_opened _ _ _ Hs) as Ho.
    destruct e; cbn [filter is_tag]; rewrite Ho in *; auto.
    + apply unwinds_start; auto.
    + exists [], (filter is_tag evs). split; [reflexivity|]. split; [constructor|auto].
Qed.
Lemma drun_matched : forall evs, drun PInit evs = Some PEnded -> matched (filter is_tag evs).
Proof. intros evs Hd. exact (drun_unwinds evs PInit Hd). Qed.

(* ---- the document shape ---- *)
Inductive root_shape : list event -> Prop :=
| rs l p u ns a c : nested [] c = Some [] -> root_shape (EStartElement l p u ns a :: c ++ [EEndElement l p u]).
Inductive subset_shape : list event -> Prop :=
| ss_none : subset_shape []
| ss_some n i s decls n' i' s' : forallb isDecl decls = true ->
    subset_shape (EInternalSubset n i s :: decls ++ [EExternalSubset n' i' s']).
Inductive document_shape : list event -> Prop :=
| ds m1 sub m2 root m3 : forallb isMisc m1 = true -> subset_shape sub -> forallb isMisc m2 = true -> root_shape root ->
    forallb isMisc m3 = true ->
    document_shape ([ESetDocumentLocator; EStartDocument] ++ m1 ++ sub ++ m2 ++ root ++ m3 ++ [EEndDocument]).

Lemma run_ended : forall evs, drun PEnded evs = Some PEnded -> evs = [].
Proof. intros [|e evs] Hd; [auto|]. destruct e; discriminate. Qed.
Lemma run_stray : forall evs, drun PStray evs = Some PEnded -> False.
Proof. intros [|e evs] Hd; [discriminate|]. destruct e; discriminate. Qed.
Lemma run_epilog : forall evs, drun PEpilog evs = Some PEnded -> exists m, evs = m ++ [EEndDocument] /\ forallb isMisc m = true.
Proof.
  induction evs as [|e evs IH]; intros Hd; [discriminate|].
  destruct e; cbn [drun dstep] in Hd; try discriminate.
  - apply run_ended in Hd. subst. exists []. auto.
  - destruct (IH Hd) as (m & -> & Hm). eexists (_ :: m). split; [reflexivity|auto].
  - destruct (IH Hd) as (m & -> & Hm). eexists (_ :: m). split; [reflexivity|auto].
Qed.
Lemma run_root : forall evs stk n, drun (PRoot (stk ++ [n])) evs = Some PEnded ->
  exists c m, evs = c ++ (let '(l, p, u) := n in EEndElement l p u) :: m ++ [EEndDocument] /\ nested stk c = Some [] /\ forallb isMisc m = true.
Proof.
  induction evs as [|e evs IH]; intros stk n Hd; [discriminate|].
  assert (Hc : isContent e = true -> (forall l p u, e <> EEndElement l p u) -> drun (PRoot (stk ++ [n])) evs = Some PEnded ->
    exists c m, e :: evs = c ++ (let '(l, p, u) := n in EEndElement l p u) :: m ++ [EEndDocument] /\ nested stk c = Some [] /\ forallb isMisc m = true).
  { intros Hc He Hr. destruct (IH stk n Hr) as (c & m & -> & Hn & Hm). exists (e :: c), m. split; [reflexivity|]. split; [|auto].
    destruct e; try discriminate Hc; cbn [nested isContent]; auto. }
  destruct e; cbn [drun dstep isContent] in Hd;
    try (apply Hc; [reflexivity|discriminate|destruct (stk ++ [n]); exact Hd]);
    try (destruct (stk ++ [n]); discriminate).
  - change ((local, prefix, uri) :: stk ++ [n]) with (((local, prefix, uri) :: stk) ++ [n]) in Hd.
    assert (Hr : drun (PRoot (((local, prefix, uri) :: stk) ++ [n])) evs = Some PEnded) by (destruct (stk ++ [n]) eqn:Hx; cbn [app] in *; rewrite ?Hx in *; exact Hd).
    destruct (IH _ n Hr) as (c & m & -> & Hn & Hm). eexists (_ :: c), m. split; [reflexivity|]. split; [exact Hn|auto].
  - destruct stk as [|top stk]; cbn [app] in Hd.
    + destruct (node_eqb n (local, prefix, uri)) eqn:Hn; [|discriminate]. apply node_eqb_eq in Hn. subst n.
      apply run_epilog in Hd as (m & -> & Hm). exists [], m. auto.
    + destruct (node_eqb top (local, prefix, uri)) eqn:Hn; [|discriminate].
      assert (Hr : drun (PRoot (stk ++ [n])) evs = Some PEnded) by (destruct (stk ++ [n]) eqn:Hx; [destruct stk; discriminate|exact Hd]).
      destruct (IH _ n Hr) as (c & m & -> & Hn' & Hm). eexists (_ :: c), m. split; [reflexivity|]. split; [|auto].
      cbn [nested]. rewrite Hn. exact Hn'.
Qed.
Lemma root_head : forall l p u ns a evs, drun (PRoot [(l, p, u)]) evs = Some PEnded ->
  exists r m, EStartElement l p u ns a :: evs = r ++ m ++ [EEndDocument] /\ root_shape r /\ forallb isMisc m = true.
Proof.
  intros l p u ns a evs Hd. destruct (run_root evs [] (l, p, u) Hd) as (c & m & -> & Hn & Hm).
  exists (EStartElement l p u ns a :: c ++ [EEndElement l p u]), m. split; [|split; [constructor; auto|auto]].
  cbn [app]. rewrite <- app_assoc. reflexivity.
Qed.
Lemma run_after : forall evs, drun PAfterSubset evs = Some PEnded ->
  exists m2 r m3, evs = m2 ++ r ++ m3 ++ [EEndDocument] /\ forallb isMisc m2 = true /\ root_shape r /\ forallb isMisc m3 = true.
Proof.
  induction evs as [|e evs IH]; intros Hd; [discriminate|].
  destruct e; cbn [drun dstep] in Hd; try discriminate.
  - destruct (IH Hd) as (m & r & m3 & -> & Hm & Hr & Hm3). eexists (_ :: m), r, m3. split; [reflexivity|auto].
  - destruct (root_head local prefix uri nslist attrs _ Hd) as (r & m & He & Hr & Hm). exists [], r, m. rewrite He. auto.
  - destruct (IH Hd) as (m & r & m3 & -> & Hm & Hr & Hm3). eexists (_ :: m), r, m3. split; [reflexivity|auto].
  - exfalso; eapply run_stray; eauto.
Qed.
Lemma run_subset : forall evs, drun PSubset evs = Some PEnded ->
  exists d n i s r, evs = d ++ EExternalSubset n i s :: r /\ forallb isDecl d = true /\ drun PAfterSubset r = Some PEnded.
Proof.
  induction evs as [|e evs IH]; intros Hd; [discriminate|].
  destruct e; cbn [drun dstep isDecl] in Hd; try discriminate;
    try (destruct (IH Hd) as (d0 & n0 & i0 & s0 & r0 & -> & H1 & H2); eexists (_ :: d0), n0, i0, s0, r0; split; [reflexivity|split; [exact H1|exact H2]]).
  eexists [], _, _, _, evs. split; [reflexivity|auto].
Qed.
Lemma run_prolog : forall evs, drun PProlog evs = Some PEnded ->
  exists m1 sub m2 r m3, evs = m1 ++ sub ++ m2 ++ r ++ m3 ++ [EEndDocument] /\ forallb isMisc m1 = true /\ subset_shape sub /\
    forallb isMisc m2 = true /\ root_shape r /\ forallb isMisc m3 = true.
Proof.
  induction evs as [|e evs IH]; intros Hd; [discriminate|].
  destruct e; cbn [drun dstep] in Hd; try discriminate.
  - destruct (IH Hd) as (m & sub & m2 & r & m3 & -> & Hm & X). eexists (_ :: m), sub, m2, r, m3. split; [reflexivity|split; [exact Hm|auto]].
  - destruct (root_head local prefix uri nslist attrs _ Hd) as (r & m & He & Hr & Hm). exists [], [], [], r, m. rewrite He.
    split; [reflexivity|]. repeat (split; [auto; fail|]). split; [constructor|auto].
  - destruct (IH Hd) as (m & sub & m2 & r & m3 & -> & Hm & X). eexists (_ :: m), sub, m2, r, m3. split; [reflexivity|split; [exact Hm|auto]].
  - apply run_subset in Hd as (d & n & i & s & r & -> & Hd1 & Hr). apply run_after in Hr as (m2 & r' & m3 & -> & H1 & H2 & H3).
    eexists [], (EInternalSubset _ _ _ :: d ++ [EExternalSubset n i s]), m2, r', m3.
    split; [cbn [app]; rewrite <- app_assoc; reflexivity|]. repeat (split; [auto; fail|]). split; [constructor; auto|auto].
  - exfalso; eapply run_stray; eauto.
Qed.
Lemma run_document : forall evs, drun PInit evs = Some PEnded -> document_shape evs.
Proof.
  intros [|e evs] Hd; [discriminate|]. destruct e; cbn [drun dstep] in Hd; try discriminate.
  destruct evs as [|e evs]; [discriminate|]. destruct e; cbn [drun dstep] in Hd; try discriminate.
  apply run_prolog in Hd as (m1 & sub & m2 & r & m3 & -> & H1 & H2 & H3 & H4 & H5). constructor; auto.
Qed.

(* ---- whole runs ---- *)
Section W.
Variable E : env.
Variable S : Type.
Variable H : handler S.
Definition trace (n : nat) (h : S) (bytes : str) : list event := rev (map fst (tr (snd (Parse E S H n h bytes)))).

Theorem success_shape : forall n h bytes, fst (Parse E S H n h bytes) = Ret tt -> document_shape (trace n h bytes).
Proof.
  intros n h bytes Hr. destruct (parse_tri E S H n h bytes) as (evs & He & _ & ph & Hd & Hp). apply run_document. unfold trace.
  rewrite He, Hd, Hp; auto. rewrite Hr. reflexivity.
Qed.
Theorem success_matched : forall n h bytes, fst (Parse E S H n h bytes) = Ret tt -> matched (filter is_tag (trace n h bytes)).
Proof.
  intros n h bytes Hr. destruct (parse_tri E S H n h bytes) as (evs & He & _ & ph & Hd & Hp). apply drun_matched. unfold trace.
  rewrite He, Hd, Hp; auto. rewrite Hr. reflexivity.
Qed.
Theorem prefix_balanced : forall n h bytes pre post, trace n h bytes = pre ++ post -> (ends pre <= starts pre)%nat.
Proof.
  intros n h bytes pre post Ht. destruct (parse_tri E S H n h bytes) as (evs & He & _ & ph & Hd & _). unfold trace in Ht.
  rewrite He in Ht. rewrite Ht, drun_app in Hd. destruct (drun PInit pre) as [q|] eqn:Hq; [|discriminate].
  apply drun_count in Hq. cbn in Hq. lia.
Qed.
Theorem failure_stops : forall n h bytes e k, In (e, HError k) (tr (snd (Parse E S H n h bytes))) ->
  fst (Parse E S H n h bytes) = Fail (PErr (HErr k)) /\
  exists before, tr (snd (Parse E S H n h bytes)) = (e, HError k) :: before /\
    forall e' r, In (e', r) before -> r = HNil \/ r = HUnspec.
Proof.
  intros n h bytes e k Hin. destruct (parse_tri E S H n h bytes) as (evs & He & Hr & _). rewrite He in *.
  assert (Hok : forall l e' r, forallb okr l = true -> In (e', r) l -> r = HNil \/ r = HUnspec).
  { intros l e' r Hl Hi. rewrite forallb_forall in Hl. apply Hl in Hi. cbn in Hi. destruct r; auto; discriminate. }
  destruct Hr as [[Hf _]|[(e1 & k1 & rest & -> & Hf & Ho)|(e1 & rest & -> & Hf & _)]].
  - destruct (Hok _ _ _ Hf Hin); discriminate.
  - destruct Hin as [Hx|Hin]; [|destruct (Hok _ _ _ Hf Hin); discriminate]. inversion Hx; subst e1 k1. split.
    + destruct Ho as [Ho|Ho]; [|exact Ho]. destruct (Parse_wrapped E S H n h bytes _ Ho) as (e' & X & _). discriminate.
    + exists rest. split; [auto|]. intros; eapply Hok; eauto.
  - destruct Hin as [Hx|Hin]; [inversion Hx|destruct (Hok _ _ _ Hf Hin); discriminate].
Qed.
End W.

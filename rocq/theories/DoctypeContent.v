(* Content under declarations: the parser reads every content of Doctype.v and
   reports the events the grammar gives it. *)
From Coq Require Import Permutation.
From Verif Require Import Base Utf8 Utf8Proofs Encoding XmlSpec EscapeProofs Scan ScanProofs LexProofs Parser TextProofs Complete.
From Verif Require Import Content Doctype DoctypeAttr Grammar.
Local Open Scope Z_scope.

Lemma same_of_text : forall e e', same_text e e' -> same e e'.
Proof. intros e e' [->|(t & -> & -> & H1 & H2)]; constructor; auto. Qed.
Lemma same_refl : forall l, Forall2 same l l.
Proof. induction l; constructor; auto. constructor. Qed.
Lemma predefined_none : forall E n, ncname E n -> ~ In n [s_ "lt"; s_ "gt"; s_ "amp"; s_ "apos"; s_ "quot"] -> predefined (utf8 n) = None.
Proof.
  intros E n Hn Hno. unfold predefined.
  assert (G : forall t, utf8 t = t -> Forall (fun r => valid_rune r = true) t -> In t [s_ "lt"; s_ "gt"; s_ "amp"; s_ "apos"; s_ "quot"] -> str_eqb (utf8 n) t = false).
  { intros t H1 H2 H3. apply (utf8_neq E); auto. intros ->. auto. }
  rewrite !G; [reflexivity|..]; first [reflexivity|solve [repeat constructor]|cbn; auto 12].
Qed.

(* the text between the quotes of an entity declaration and the value it has *)
Definition literal_of (E : env) (lit c : str) : Prop :=
  exists q l w, (q = 34 \/ q = 39) /\ entlit E q l w /\ lit = utf8 l /\ c = utf8 w.
(* the handler is asked for the entity and told how it was written *)
Definition noted {S : Type} (H : handler S) (v : view) (param : bool) (n lit : str) (h : S) : S :=
  let r := if param then h_getPEntity H h v n else h_getEntity H h v n in
  match snd r with
  | Answer (Some e) _ => h_setOrig H (fst r) e lit
  | _ => fst r
  end.
(* a run of a handler: the events it is told of, seen with one view, with
   declarations ([k]) also how entities were written and attributes made for
   default values; the text of an entity is a run of its own, seen with a view
   of its own, which ends with the report of the reference *)
Inductive path (E : env) (k : bool) {S : Type} (H : handler S) (v : view) : S -> list event -> S -> Prop :=
| p_nil h : path E k H v h [] h
| p_event h e l h' : (forall n t a b c, e <> EEntityDecl n t a b c) ->
    path E k H v (fst (h_event H h v e)) l h' -> path E k H v h (e :: l) h'
| p_declared h (param : bool) n c lit l h' : k = true -> literal_of E lit c ->
    path E k H v (noted H v param n lit
      (fst (h_event H h v (EEntityDecl n (if param then InternalParameterEntity else InternalGeneralEntity) [] [] c)))) l h' ->
    path E k H v h (EEntityDecl n (if param then InternalParameterEntity else InternalGeneralEntity) [] [] c :: l) h'
| p_attribute h el a ty df c l h' : k = true ->
    path E k H v (fst (h_createAttr H (fst (h_event H h v (EAttributeDecl el a ty df c []))) a [] c)) l h' ->
    path E k H v h (EAttributeDecl el a ty df c [] :: l) h'
| p_reference h w l1 h1 n l2 h2 : path E k H w (h_chunkEnter H (fst (h_getEntity H h v n))) l1 h1 ->
    path E k H v (fst (h_event H (h_chunkLeave H (fst (h_getEntity H h v n)) h1) v (EReference n))) l2 h2 ->
    path E k H v h (l1 ++ EReference n :: l2) h2.
Lemma path_app : forall E k S (H : handler S) v h a h1, path E k H v h a h1 -> forall b h2, path E k H v h1 b h2 -> path E k H v h (a ++ b) h2.
Proof.
  intros E k S H v h a h1 Hp. induction Hp; intros bs h9 Hb.
  - exact Hb.
  - apply p_event; auto.
  - eapply p_declared; eauto.
  - eapply p_attribute; auto.
  - rewrite <- app_assoc. cbn [app]. eapply p_reference; eauto.
Qed.
Lemma path_more : forall E S (H : handler S) v h a h1, path E false H v h a h1 -> path E true H v h a h1.
Proof.
  intros E S H v h a h1 Hp. induction Hp.
  - constructor.
  - apply p_event; auto.
  - eapply p_declared; eauto.
  - eapply p_attribute; eauto.
  - eapply p_reference; eauto.
Qed.

Section D.
Variable E : env.
Hypothesis OK : env_ok E.
Variable S : Type.
Variable H : handler S.
Variable known : S -> str -> option str.
Hypothesis R : remembers H known.
Variable ds : list decl.
Hypothesis Hents : forall n t, In (n, t) (entities ds) ->
  ncname E n /\ legals t /\ ~ In n [s_ "lt"; s_ "gt"; s_ "amp"; s_ "apos"; s_ "quot"].
Notation st := (Complete.st S).
Notation HT := (S * list (event * hres))%type.

(* the trace has grown by some events, and what is known has not changed *)
Definition went (v : view) (ht : HT) (evs : list event) (ht' : HT) : Prop :=
  map fst (snd ht') = rev evs ++ map fst (snd ht) /\ (forall n, known (fst ht') n = known (fst ht) n) /\
  path E false H v (fst ht) evs (fst ht').
Lemma went_nil : forall v ht, went v ht [] ht.
Proof. intros. split; [auto|]. split; [auto|constructor]. Qed.
Lemma went_app : forall v h a h1 b h2, went v h a h1 -> went v h1 b h2 -> went v h (a ++ b) h2.
Proof.
  intros v h a h1 b h2 (A1 & A2 & A3) (B1 & B2 & B3). split; [|split; [intros; rewrite B2; auto|eapply path_app; eauto]].
  rewrite B1, A1, rev_app_distr, app_assoc. reflexivity.
Qed.
Lemma accept : forall v ht e, exists ht', deliver S H v ht [e] = Some ht' /\
  map fst (snd ht') = e :: map fst (snd ht) /\ fst ht' = fst (h_event H (fst ht) v e).
Proof.
  intros v ht e. cbn [deliver]. pose proof (r_accepts S H known R (fst ht) v e) as Ha.
  destruct (h_event H (fst ht) v e) as [h' a]. cbn [snd fst] in Ha. destruct Ha as [->| ->]; eexists; (split; [reflexivity|]); auto.
Qed.
Definition quiet (e : event) : Prop := forall n t p s c, e <> EEntityDecl n t p s c.
Lemma accept_quiet : forall v ht e, quiet e -> exists ht', deliver S H v ht [e] = Some ht' /\ went v ht [e] ht'.
Proof.
  intros v ht e He. destruct (accept v ht e) as (ht' & H1 & H2 & H3). exists ht'. split; [auto|]. split; [auto|]. split.
  - intros n. rewrite H3. apply (r_other S H known R). intros. apply He.
  - rewrite H3. apply p_event; [exact He|apply p_nil].
Qed.

Definition knows (ht : HT) : Prop := forall n t, In (n, t) (entities ds) -> known (fst ht) (utf8 n) = Some (utf8 t).
Lemma knows_went : forall v ht evs ht', knows ht -> went v ht evs ht' -> knows ht'.
Proof. intros v ht evs ht' Hk (_ & Hw & _) n t Hi. rewrite Hw. auto. Qed.
(* the tables of the state agree with the declarations *)
Definition tables (live : bool) (s : pst S) : Prop :=
  (forall e a, ncname E e -> ncname E a -> special S s (utf8 e) (utf8 a) = live && tokenised ds (utf8 e) (utf8 a)) /\
  (forall q, defaultsOf q (attsDefault s) = map (fun x => (fst x, [], snd x)) (defaults ds q)).
Definition room (k : nat) (s : pst S) : Prop := depth s + 2 * Z.of_nat k <= 40.

Definition PC (k : nat) (live : bool) (ns : list (str * str)) (c : list Z) (evs : list event) (d : list (str * str)) : Prop :=
  exists N, forall n r tab nd ht s, (N <= n)%nat -> stop r -> tables live s -> room k s -> knows ht ->
  scoped ns tab -> NoDup (map fst (tab ++ d)) -> ~ In [] (map fst d) ->
  exists ht' evs', Forall2 same evs evs' /\ went (the_view S s) ht evs' ht' /\
    parseContent E S H n (st (c ++ r) tab nd ht s) = (Ret tt, st r (tab ++ d) nd ht' s).
Definition PE (k : nat) (live : bool) (ns : list (str * str)) (c : list Z) (evs : list event) (d : list (str * str)) : Prop :=
  exists N, forall n r tab nd ht s, (N <= n)%nat -> tables live s -> room k s -> knows ht ->
  scoped ns tab -> NoDup (map fst (tab ++ d)) -> ~ In [] (map fst d) ->
  exists ht' evs', Forall2 same evs evs' /\ went (the_view S s) ht evs' ht' /\
    parseElement E S H n (parseContent E S H n) (st (c ++ r) tab nd ht s) = (Ret tt, st r (tab ++ d) nd ht' s).

(* one item, then the rest of the content *)
Lemma item : forall k live ns x c e evs d, PC k live ns c evs d -> quiet e ->
  (forall m r tab nd ht z, stop r -> exists e', same e e' /\ quiet e' /\ forall ht', deliver S H (the_view S z) ht [e'] = Some ht' ->
     parseContent E S H (Datatypes.S m) (st (x ++ c ++ r) tab nd ht z) = parseContent E S H m (st (c ++ r) tab nd ht' z)) ->
  PC k live ns (x ++ c) (e :: evs) d.
Proof.
  intros k live ns x c e evs d [N IH] He Hstep. exists (Datatypes.S N). intros n r tab nd ht z Hn Hr Ht Hk Hkn Hsc Hnd Hd.
  destruct n as [|n]; [lia|]. rewrite <- app_assoc. destruct (Hstep n r tab nd ht z Hr) as (e' & E1 & E2 & E3).
  destruct (accept_quiet (the_view S z) ht e' E2) as (h1 & D1 & W1). rewrite (E3 h1 D1).
  destruct (IH n r tab nd h1 z) as (ht' & evs' & F & W & P); auto; [lia|eapply knows_went; eauto|].
  exists ht', (e' :: evs'). split; [constructor; auto|]. split; [|auto]. apply (went_app _ _ [e'] h1); auto.
Qed.

(* ---- start tags ---- *)
Lemma atts_names : forall t a d, atts E t a d ->
  (forall al ap v, In (AAttr al ap v) a -> exists l, ncname E l /\ al = utf8 l) /\
  (forall dp u, In (dp, u) d -> exists l, ncname E l /\ decl_key dp = utf8 l).
Proof.
  intros t a d Ht. induction Ht as [b Hb|b p l e1 e2 q lit v t a d Hb1 Hb2 Hql Hx1 Hx2 He1 He2 Hq Hlit Ht [IH1 IH2]
    |b l e1 e2 q lit v t a d Hb1 Hb2 Hl Hl1 Hl2 He1 He2 Hq Hlit Hv1 Hv2 Hu Ht [IH1 IH2]
    |b e1 e2 q lit v Hb1 Hb2 He1 He2 Hq Hlit Hv]; split; intros.
  - destruct H0.
  - destruct H0.
  - destruct H0 as [H0|H0]; [|eauto]. inversion H0; subst. exists l. split; [apply Hql|auto].
  - eauto.
  - eauto.
  - destruct H0 as [H0|H0]; [|eauto]. inversion H0; subst. exists l. split; [auto|]. unfold decl_key.
    destruct (utf8 l) eqn:Hul; [|auto]. apply utf8_nil in Hul. subst. destruct Hl as [[] _].
  - destruct H0.
  - destruct H0 as [H0|[]]. inversion H0; subst. exists (s_ "xmlns"). split; [apply xmlns_ncname; auto|reflexivity].
Qed.
Lemma typable_readable : forall live p l t a d s, qnamed E p l -> atts E t a d -> tables live s -> typable ds live p l a d ->
  readable S s (utf8 l) a d /\ map (valued S s (utf8 l)) a = map (value_of ds (utf8 (qname p l))) a.
Proof.
  intros live p l t a d s [_ Hl] Ha [T1 _] [Y1 Y2]. destruct (atts_names t a d Ha) as [N1 N2]. split; [split|].
  - intros al ap v Hi Hs. destruct (N1 _ _ _ Hi) as (ll & Hll & ->). rewrite T1 in Hs by auto. apply andb_true_iff in Hs.
    destruct (Y1 _ _ _ Hi) as (_ & Y & _). apply Y. apply Hs.
  - intros dp u Hi. destruct (N2 _ _ Hi) as (ll & Hll & Hk). rewrite Hk, T1 by auto. rewrite <- Hk.
    specialize (Y2 _ _ Hi). unfold decl_key. rewrite Y2. apply andb_false_r.
  - apply map_ext_in. intros x Hi. destruct x as [al ap v|]; [|auto]. cbn [valued value_of].
    destruct (N1 _ _ _ Hi) as (ll & Hll & ->). rewrite T1 by auto. destruct (Y1 _ _ _ Hi) as (Y & Y' & _).
    rewrite <- Y. destruct (tokenised ds (utf8 l) (utf8 ll)); [|rewrite andb_false_r; auto].
    destruct Y' as [-> _]; auto.
Qed.
Lemma start_tag : forall live p l t a d u ns e r tab nd ht s n, qnamed E p l -> atts E t a d -> typable ds live p l a d ->
  resolves (rev d ++ ns) (utf8 p) u -> scoped ns tab -> NoDup (map fst (tab ++ d)) -> tables live s -> (List.length t < n)%nat ->
  exists ht' ev, same (EStartElement (utf8 l) (utf8 p) u (map Some d) (reported ds (utf8 (qname p l)) a)) ev /\ went (the_view S s) ht [ev] ht' /\
    parseStartTag E S H n (st (60 :: qname p l ++ t ++ tail e r) tab nd ht s) =
      (Ret tt, st (left e r) (tab ++ d) ((utf8 l, utf8 p, u) :: nd) ht' s).
Proof.
  intros live p l t a d u ns e r tab nd ht s n Hq Ha Hy Hr Hsc Hnd Ht Hn.
  destruct (typable_readable live p l t a d s Hq Ha Ht Hy) as [Hrd Hval].
  set (ev := EStartElement (utf8 l) (utf8 p) u (map Some d)
     (map (valued S s (utf8 l)) a ++ map as_default (permute E (List.length (snd ht)) (defaultsOf (utf8 (qname p l)) (attsDefault s))))).
  destruct (accept_quiet (the_view S s) ht ev) as (ht' & D & W); [intros ? ? ? ? ?; discriminate|].
  exists ht', ev. split; [|split; [auto|]].
  - subst ev. rewrite Hval. unfold reported. apply sm_start; [apply Forall_forall; intros x Hx; apply in_map_iff in Hx as (y & <- & _); eauto|]. destruct Ht as [_ T2].
    replace (map (fun x => ADefault (fst x) [] (snd x)) (defaults ds (utf8 (qname p l))))
      with (map as_default (defaultsOf (utf8 (qname p l)) (attsDefault s))).
    2:{ rewrite T2, map_map. reflexivity. }
    apply Permutation_map, Permutation_sym, (ok_permute E OK).
  - apply (parseStartTag_typed E OK S H n p l t a d u ns); auto.
Qed.

(* ---- references to entities ---- *)
Lemma entity_known : forall n t l tab nd ht s, In (n, t) (entities ds) -> knows ht -> exists i,
  let h' := fst (h_getEntity H (fst ht) (the_view S s) (utf8 n)) in
  parseEntityRef E S H (st (38 :: n ++ [59] ++ l) tab nd ht s) =
    (Ret {| e_id := i; e_name := utf8 n; e_type := InternalGeneralEntity; e_content := utf8 t |}, st l tab nd (h', snd ht) s) /\
  forall m, known h' m = known (fst ht) m.
Proof.
  intros n t l tab nd ht s Hi Hk. destruct (Hents n t Hi) as (Hn & Ht & Hno).
  destruct (r_answers S H known R (fst ht) (the_view S s) _ _ (Hk n t Hi)) as (i & Ha).
  exists i. split; [|intros; apply (r_asked S H known R)].
  unfold parseEntityRef.
  erewrite bind_ret by apply mpeek_st. rewrite Z.eqb_refl. cbn [negb].
  erewrite bind_ret by apply madv1_st.
  erewrite bind_ret.
  2:{ apply lift_st. unfold por_else. rewrite (parseName_app E n ([59] ++ l) OK (ncname_nameOf E OK n Hn)); auto.
      cbn. unfold nameRest. rewrite (ok_letter E OK), (ok_digit E OK) by lia. split; [reflexivity|discriminate]. }
  cbn [app]. erewrite bind_ret by apply mpeek_st. rewrite Z.eqb_refl. cbn [negb].
  erewrite bind_ret by apply madv1_st. rewrite (predefined_none E) by auto.
  unfold bind at 1. unfold queryEntity. cbn [Complete.st hs]. change (the_view S (st l tab nd ht s)) with (the_view S s).
  destruct (h_getEntity H (fst ht) (the_view S s) (utf8 n)) as [h' a]. cbn [snd fst] in *. subst a. reflexivity.
Qed.
Definition chunk_state (t : list Z) (ht : HT) (s : pst S) : pst S := {|
  inp := t; nsTab := []; nodeTab := [(s_ "pseudoroot", [], [])];
  attsSpecial := []; attsDefault := attsDefault s; hasPERefs := false; depth := depth s + 1 + 1; inSubset := 0;
  version := []; encoding := []; standalone := StandaloneImplicitNo; intSubName := [];
  hs := h_chunkEnter H (fst ht); tr := snd ht |}.
Lemma chunk : forall K t l tab nd ht s tab' nd' ht1, depth s + 2 <= 40 -> legals t ->
  let z := chunk_state t ht s in
  K (st (t ++ []) [] (nodeTab z) (hs z, tr z) z) = (Ret tt, st [] tab' nd' ht1 z) ->
  parseBalancedChunk S H K (utf8 t) (st l tab nd ht s) = (Ret tt, st l tab nd (h_chunkLeave H (fst ht) (fst ht1), snd ht1) s).
Proof.
  intros K t l tab nd ht s tab' nd' ht1 Hd Ht z Hrun. unfold parseBalancedChunk. cbn [Complete.st depth].
  destruct (Z.ltb_spec 40 (depth s + 1)); [lia|]. cbv zeta. rewrite runes_of_utf8 by (apply legals_valid; auto).
  rewrite app_nil_r in Hrun. subst z. unfold chunk_state, Complete.st in *. cbn in *. rewrite Hrun. reflexivity.
Qed.
Lemma entity_ref : forall k live ns n t evs1 d1 c evs d, In (n, t) (entities ds) ->
  PC k false [] t evs1 d1 -> NoDup (map fst d1) -> ~ In [] (map fst d1) -> PC (Datatypes.S k) live ns c evs d ->
  PC (Datatypes.S k) live ns (38 :: n ++ [59] ++ c) (evs1 ++ EReference (utf8 n) :: evs) d.
Proof.
  intros k live ns n t evs1 d1 c evs d Hi [N1 IH1] Hn1 Hd1 [N2 IH2].
  destruct (Hents n t Hi) as (Hn & Hleg & _).
  exists (Datatypes.S (N1 + N2)). intros m r tab nd ht s Hm Hr Ht Hk Hkn Hsc Hnd Hd. destruct m as [|m]; [lia|].
  change ((38 :: n ++ [59] ++ c) ++ r) with (38 :: (n ++ [59] ++ c) ++ r). rewrite <- !app_assoc.
  destruct (entity_known n t (c ++ r) tab nd ht s Hi Hkn) as (i & Href & Hsame). set (h' := fst (h_getEntity H (fst ht) (the_view S s) (utf8 n))) in *.
  set (h1 := (h', snd ht) : HT) in *. set (z := chunk_state t h1 s).
  assert (Hd2 : depth s + 2 <= 40) by (unfold room in Hk; lia).
  destruct (IH1 m [] [] (nodeTab z) (hs z, tr z) z) as (h2 & ev1 & F1 & W1 & P1); auto.
  { lia. } { left; auto. }
  { split; [|exact (proj2 Ht)]. intros e a _ _. reflexivity. }
  { unfold room, z, chunk_state. cbn [depth]. unfold room in Hk. lia. }
  { intros n0 t0 Hi0. cbn [fst hs z chunk_state]. rewrite (r_enter S H known R). cbn [fst h1]. rewrite Hsame. apply Hkn; auto. }
  { split; [constructor|]. split; [intros ? ? []|]. split; [intros ? ? Hx; discriminate|]. intros []. }
  pose proof (chunk (parseContent E S H m) t (c ++ r) tab nd h1 s _ _ h2 Hd2 Hleg P1) as Hch.
  set (h3 := (h_chunkLeave H (fst h1) (fst h2), snd h2) : HT) in *.
  destruct (accept_quiet (the_view S s) h3 (EReference (utf8 n))) as (h4 & D4 & W4); [intros ? ? ? ? ?; discriminate|].
  assert (W3 : went (the_view S s) ht (ev1 ++ [EReference (utf8 n)]) h4).
  { destruct W1 as (W1 & W1' & W1''), W4 as (W4 & W4' & _). split; [rewrite W4; cbn [snd h3]; rewrite W1, rev_app_distr; reflexivity|]. split.
    - intros x. rewrite W4'. cbn [fst h3]. rewrite (r_leave S H known R), W1'. cbn [fst hs z chunk_state]. rewrite (r_enter S H known R). apply Hsame.
    - eapply p_reference; fold h'; [exact W1''|].
      replace (fst (h_event H (h_chunkLeave H h' (fst h2)) (the_view S s) (EReference (utf8 n)))) with (fst h4); [apply p_nil|].
      clear - D4. cbn [deliver] in D4. change (fst h3) with (h_chunkLeave H h' (fst h2)) in D4.
      destruct (h_event H (h_chunkLeave H h' (fst h2)) (the_view S s) (EReference (utf8 n))) as [y a]. destruct a; inversion D4; reflexivity. }
  destruct (IH2 m r tab nd h4 s) as (h5 & ev2 & F2 & W2 & P2); auto.
  { lia. } { eapply knows_went; eauto. }
  exists h5, (ev1 ++ [EReference (utf8 n)] ++ ev2). split; [|split].
  - apply Forall2_app; auto. constructor; auto. constructor.
  - rewrite app_assoc. eapply went_app; eauto.
  - destruct n as [|c0 n0] eqn:Hnn; [destruct Hn as [[] _]|]. rewrite <- Hnn in *.
    assert (Hc0 : name_start E c0 = true) by (subst n; apply Hn).
    rewrite parseContent_step. cbn [done app].
    refine (eq_trans (bind_ret _ _ _ (wrap S (parseReference E S H (parseContent E S H m))) (fun _ => parseContent E S H m) _ tt _ _) P2).
    apply wrap_ret. unfold parseReference. erewrite bind_ret by apply mpeek_st. rewrite Z.eqb_refl. cbn [negb].
    erewrite bind_ret. 2:{ apply lift_st. unfold ppeekn, peekn. cbn [pred]. reflexivity. }
    replace (nth 1 (38 :: n ++ 59 :: c ++ r) (eofr E) =? 35) with false.
    2:{ subst n. cbn [app nth]. symmetry. apply Z.eqb_neq. intros ->. unfold name_start in Hc0. rewrite (ok_letter E OK) in Hc0 by lia. discriminate. }
    erewrite bind_ret. 2:{ apply wrap_ret. exact Href. }
    cbn [e_name e_type e_content]. replace (str_eqb (utf8 n) []) with false.
    2:{ symmetry. apply str_eqb_nil. apply utf8_ne. subst n. discriminate. }
    change (InternalGeneralEntity =? InternalPredefinedEntity) with false. cbn [orb].
    change (InternalGeneralEntity =? ExternalGeneralParsedEntity) with false. cbv iota.
    change (InternalGeneralEntity =? InternalGeneralEntity) with true. cbv iota.
    erewrite bind_ret by exact Hch.
    clear - D4. unfold emit_raw. cbn [deliver Complete.st hs] in *. change (the_view S (st (c ++ r) tab nd h3 s)) with (the_view S s).
    destruct (h_event H (fst h3) (the_view S s) (EReference (utf8 n))) as [h9 a9]. destruct a9; inversion D4; subst; reflexivity.
Qed.

Lemma start_not_entity : forall e, (exists a b c d f, e = EStartElement a b c d f) \/ (exists a b c, e = EEndElement a b c) -> quiet e.
Proof. intros e [(a & b & c & d & f & ->)|(a & b & c & ->)] ? ? ? ?; discriminate. Qed.

Scheme dcontent_mut := Minimality for dcontent Sort Prop with delement_mut := Minimality for delement Sort Prop.
Lemma dcontent_values : forall k live ns s evs d, dcontent E ds k live ns s evs d -> forall p u, In (p, u) d -> u <> [].
Proof.
  apply (dcontent_mut E ds (fun k live ns s evs d => forall p u, In (p, u) d -> u <> []) (fun k live ns s evs d => forall p u, In (p, u) d -> u <> []));
  intros; repeat match goal with h : In _ (_ ++ _) |- _ => apply in_app_or in h; destruct h | h : In _ [] |- _ => destruct h end;
  eauto using atts_values.
Qed.
Lemma delement_values : forall k live ns s evs d, delement E ds k live ns s evs d -> forall p u, In (p, u) d -> u <> [].
Proof.
  intros k live ns s evs d He. destruct He; intros;
  repeat match goal with h : In _ (_ ++ _) |- _ => apply in_app_or in h; destruct h end; eauto using atts_values, dcontent_values.
Qed.
Lemma delem_head : forall k live ns x evs d, delement E ds k live ns x evs d -> exists c r, x = 60 :: c :: r /\ name_start E c = true.
Proof.
  intros k live ns x evs d He. destruct He as [k live ns p l t a d u Hq|k live ns p l t a d u s evs d1 Hq];
  destruct (qname_head E p l Hq) as (c & z & Hqn & Hc); rewrite Hqn; cbn [s_ app]; cbn; eauto.
Qed.

Lemma full_element : forall k live ns p l t a d u s evs d1, qnamed E p l -> atts E t a d -> typable ds live p l a d ->
  resolves (rev d ++ ns) (utf8 p) u -> PC k live (rev d ++ ns) s evs d1 -> (forall x, s <> s_ "/>" ++ x) ->
  exists N, forall n r tab nd ht z, (N <= n)%nat -> tables live z -> room k z -> knows ht ->
  scoped ns tab -> NoDup (map fst (tab ++ d ++ d1)) -> ~ In [] (map fst d1) ->
  exists ht' evs', Forall2 same ([EStartElement (utf8 l) (utf8 p) u (map Some d) (reported ds (utf8 (qname p l)) a)] ++ evs ++ [EEndElement (utf8 l) (utf8 p) u]) evs' /\
    went (the_view S z) ht evs' ht' /\
    parseElement E S H n (parseContent E S H n) (st ((s_ "<" ++ qname p l ++ t ++ s_ ">" ++ s ++ s_ "</" ++ qname p l ++ s_ ">") ++ r) tab nd ht z) =
      (Ret tt, st r (tab ++ d ++ d1) nd ht' z).
Proof.
  intros k live ns p l t a d u s evs d1 Hq Ha Hy Hr [N IH] Hsl. exists (Datatypes.S (N + List.length t)).
  intros n r tab nd ht z Hn Ht Hk Hkn Hsc Hnd Hde. rewrite <- !app_assoc.
  assert (Hnd' : NoDup (map fst (tab ++ d))). { rewrite app_assoc, map_app in Hnd. apply NoDup_app_l in Hnd. exact Hnd. }
  destruct (start_tag live p l t a d u ns false (s ++ s_ "</" ++ qname p l ++ s_ ">" ++ r) tab nd ht z n) as (h1 & ev1 & E1 & W1 & P1); auto; [lia|].
  cbn [tail left] in P1.
  destruct (IH n (s_ "</" ++ qname p l ++ s_ ">" ++ r) (tab ++ d) ((utf8 l, utf8 p, u) :: nd) h1 z) as (h2 & ev2 & F2 & W2 & P2); auto.
  { lia. } { right; reflexivity. } { eapply knows_went; eauto. }
  { apply scoped_inner; auto. eapply atts_values; eauto. } { rewrite <- app_assoc; auto. }
  destruct (accept_quiet (the_view S z) h2 (EEndElement (utf8 l) (utf8 p) u)) as (h3 & D3 & W3); [intros ? ? ? ? ?; discriminate|].
  exists h3, ([ev1] ++ ev2 ++ [EEndElement (utf8 l) (utf8 p) u]). split; [|split].
  - apply Forall2_app; [constructor; auto|]. apply Forall2_app; auto. constructor; [constructor|constructor].
  - eapply went_app; [exact W1|]. eapply went_app; eauto.
  - unfold parseElement. erewrite bind_ret. 2:{ apply wrap_ret. exact P1. }
    erewrite bind_ret. 2:{ apply lift_st. unfold phas. reflexivity. }
    replace (has_prefix (s_ "/>") (s ++ s_ "</" ++ qname p l ++ s_ ">" ++ r)) with false.
    2:{ clear - Hsl. symmetry. destruct s as [|x [|y s]]; cbn; [reflexivity|rewrite andb_false_r; reflexivity|].
        destruct (Z.eqb_spec 47 x); [|reflexivity]. destruct (Z.eqb_spec 62 y); [|reflexivity]. subst. exfalso. apply (Hsl s). reflexivity. }
    erewrite bind_ret. 2:{ apply wrap_ret. exact P2. }
    rewrite (app_assoc tab d d1). apply wrap_ret. apply parseEndTag_st; auto.
Qed.
Lemma empty_element : forall live ns p l t a d u, qnamed E p l -> atts E t a d -> typable ds live p l a d ->
  resolves (rev d ++ ns) (utf8 p) u ->
  forall n r tab nd ht z, (List.length t < n)%nat -> tables live z -> scoped ns tab -> NoDup (map fst (tab ++ d)) ->
  exists ht' evs', Forall2 same [EStartElement (utf8 l) (utf8 p) u (map Some d) (reported ds (utf8 (qname p l)) a); EEndElement (utf8 l) (utf8 p) u] evs' /\
    went (the_view S z) ht evs' ht' /\
    parseElement E S H n (parseContent E S H n) (st ((s_ "<" ++ qname p l ++ t ++ s_ "/>") ++ r) tab nd ht z) =
      (Ret tt, st r (tab ++ d) nd ht' z).
Proof.
  intros live ns p l t a d u Hq Ha Hy Hr n r tab nd ht z Hn Ht Hsc Hnd. rewrite <- !app_assoc.
  destruct (start_tag live p l t a d u ns true r tab nd ht z n) as (h1 & ev1 & E1 & W1 & P1); auto.
  destruct (accept_quiet (the_view S z) h1 (EEndElement (utf8 l) (utf8 p) u)) as (h3 & D3 & W3); [intros ? ? ? ? ?; discriminate|].
  exists h3, ([ev1] ++ [EEndElement (utf8 l) (utf8 p) u]). split; [|split].
  - constructor; auto. constructor; constructor.
  - eapply went_app; eauto.
  - unfold parseElement. erewrite bind_ret. 2:{ apply wrap_ret. exact P1. }
    cbn [left]. erewrite bind_ret by (apply lift_st; reflexivity). cbv iota.
    erewrite bind_ret by reflexivity. apply wrap_ret. apply (parseEndTag_empty_st E S H (utf8 p) (utf8 l) u); auto.
Qed.

Lemma steps_to : forall m x l tab nd ht z ht' (K : M S unit),
  wrap S K (st (x ++ l) tab nd ht z) = (Ret tt, st l tab nd ht' z) ->
  bind S (wrap S K) (fun _ => parseContent E S H m) (st (x ++ l) tab nd ht z) = parseContent E S H m (st l tab nd ht' z).
Proof. intros. erewrite bind_ret by eauto. reflexivity. Qed.

Theorem dcontent_st : forall k live ns c evs d, dcontent E ds k live ns c evs d -> PC k live ns c evs d.
Proof.
  apply (dcontent_mut E ds PC PE).
  - intros k live ns. exists 1%nat. intros n r tab nd ht s Hn Hr Ht Hk Hkn Hsc Hnd Hd. exists ht, [].
    split; [constructor|]. split; [apply went_nil|]. rewrite app_nil_r. apply parseContent_stop; [auto|lia].
  - intros k live ns t t' s evs d Ht Ht' Hm Hc IH. apply item; [auto|intros ? ? ? ? ?; discriminate|].
    intros m r tab nd ht z Hr. destruct (parseCharData_st E OK S H t (s ++ r) tab nd ht z Ht (starts_app s r Hm Hr)) as (e & He & Hrun).
    rewrite (eol_crlf_eq _ _ Ht') in *. exists e. split; [apply same_of_text; auto|]. split.
    { destruct He as [->|(x & _ & -> & _)]; intros ? ? ? ? ?; discriminate. }
    intros ht' Hd. rewrite parseContent_step. assert (Htne : t <> []) by apply Ht. destruct t as [|c t]; [congruence|]. cbn [app done].
    assert (c <> 60 /\ c <> 38) as [C1 C2].
    { destruct Ht as (_ & _ & T1 & T2 & _). split; intros ->; [apply T1|apply T2]; left; auto. }
    cbn [s_ has_prefix]. cbn. destruct (Z.eqb_spec 60 c); [congruence|]. destruct (Z.eqb_spec 38 c); [congruence|]. cbn [andb].
    erewrite bind_ret by (apply Hrun; exact Hd). reflexivity.
  - intros k live ns t x s evs d Hr Hx Hc IH.
    assert (exists p, t = p ++ s) as [p ->].
    { destruct (reference_cases t x s Hr) as [(hex & b & Ht & Hnum & _)|(nm & Ht & _)]; [|exists (nm ++ [59]); rewrite <- app_assoc; auto].
      assert (exists q, b = q ++ s) as [q ->].
      { clear - Hnum. assert (G : forall base val b seen acc, number base val seen acc b = Some (x, s) -> exists q, b = q ++ s).
        { intros base val. induction b0 as [|c b0 IH]; intros seen acc Hn; [discriminate|]. cbn [number] in Hn. destruct (c =? 59).
          destruct seen; inversion Hn; subst; exists [c]; auto. destruct (val c); [|discriminate]. destruct (IH _ _ Hn) as [q ->]. exists (c :: q); auto. }
        destruct hex; cbn [refNumber] in Hnum; eapply G; eauto. }
      destruct hex; cbn [refPrefix] in Ht; inversion Ht; subst; [exists (35 :: 120 :: q)|exists (35 :: q)]; reflexivity. }
    change (38 :: p ++ s) with ((38 :: p) ++ s). apply item; [auto|intros ? ? ? ? ?; discriminate|].
    intros m r tab nd ht z Hst. eexists. split; [constructor|]. split; [intros ? ? ? ? ?; discriminate|]. intros ht' Hd.
    pose proof (reference_app _ _ _ r Hr) as Hr'. rewrite <- app_assoc in Hr'.
    rewrite parseContent_step. cbn [app done]. apply (steps_to m (38 :: p) (s ++ r)).
    apply wrap_ret. apply (parseReference_st E OK S H _ _ x); auto.
  - intros k live ns b b' s evs d Hb Hb' Hc IH. rewrite (eol_crlf_eq _ _ Hb') in *.
    replace (s_ "<!--" ++ b ++ s_ "-->" ++ s) with ((s_ "<!--" ++ b ++ s_ "-->") ++ s) by (rewrite <- !app_assoc; reflexivity).
    apply item; [auto|intros ? ? ? ? ?; discriminate|].
    intros m r tab nd ht z Hst. eexists. split; [constructor|]. split; [intros ? ? ? ? ?; discriminate|]. intros ht' Hd.
    rewrite parseContent_step. apply (steps_to m (s_ "<!--" ++ b ++ s_ "-->") (s ++ r)). apply wrap_ret. rewrite <- !app_assoc. apply parseComment_st; auto.
  - intros k live ns t s evs d Ht Hc IH.
    replace (s_ "<?" ++ t ++ s_ "?>" ++ s) with ((s_ "<?" ++ t ++ s_ "?>") ++ s) by (rewrite <- !app_assoc; reflexivity).
    apply item; [auto|intros ? ? ? ? ?; discriminate|].
    intros m r tab nd ht z Hst. eexists. split; [constructor|]. split; [intros ? ? ? ? ?; discriminate|]. intros ht' Hd.
    rewrite parseContent_step. apply (steps_to m (s_ "<?" ++ t ++ s_ "?>") (s ++ r)). apply wrap_ret. rewrite <- !app_assoc. apply parsePI_st0; auto.
  - intros k live ns t b x s evs d Ht Hb1 Hb2 Hx Hc IH.
    replace (s_ "<?" ++ t ++ b ++ x ++ s_ "?>" ++ s) with ((s_ "<?" ++ t ++ b ++ x ++ s_ "?>") ++ s) by (rewrite <- !app_assoc; reflexivity).
    apply item; [auto|intros ? ? ? ? ?; discriminate|].
    intros m r tab nd ht z Hst. eexists. split; [constructor|]. split; [intros ? ? ? ? ?; discriminate|]. intros ht' Hd.
    rewrite parseContent_step. apply (steps_to m (s_ "<?" ++ t ++ b ++ x ++ s_ "?>") (s ++ r)). apply wrap_ret. rewrite <- !app_assoc. apply parsePI_st; auto.
  - intros k live ns b b' s evs d Hb Hb' Hc IH. rewrite (eol_crlf_eq _ _ Hb') in *.
    replace (s_ "<![CDATA[" ++ b ++ s_ "]]>" ++ s) with ((s_ "<![CDATA[" ++ b ++ s_ "]]>") ++ s) by (rewrite <- !app_assoc; reflexivity).
    apply item; [auto|intros ? ? ? ? ?; discriminate|].
    intros m r tab nd ht z Hst. eexists. split; [constructor|]. split; [intros ? ? ? ? ?; discriminate|]. intros ht' Hd.
    rewrite parseContent_step. apply (steps_to m (s_ "<![CDATA[" ++ b ++ s_ "]]>") (s ++ r)). apply wrap_ret. rewrite <- !app_assoc. apply parseCDSect_st; auto.
  - intros k live ns x s evs1 d1 evs d He [N1 IH1] Hc [N2 IH2].
    destruct (delem_head _ _ _ _ _ _ He) as (c & y & Hx & Hcs).
    exists (Datatypes.S (N1 + N2)). intros n r tab nd ht z Hn Hr Ht Hk Hkn Hsc Hnd Hd. destruct n as [|n]; [lia|].
    rewrite <- app_assoc. rewrite app_assoc in Hnd. rewrite map_app in Hd.
    assert (Hnd1 : NoDup (map fst (tab ++ d1))) by (rewrite map_app in Hnd; apply NoDup_app_l in Hnd; auto).
    destruct (IH1 n (s ++ r) tab nd ht z) as (h1 & ev1 & F1 & W1 & P1); auto; [lia|intros Hi; apply Hd, in_or_app; auto|].
    destruct (IH2 n r (tab ++ d1) nd h1 z) as (h2 & ev2 & F2 & W2 & P2); auto.
    { lia. } { eapply knows_went; eauto. }
    { apply scoped_after; auto; [eapply delement_values; eauto|]. intros Hi. apply Hd. apply in_or_app; auto. }
    { intros Hi. apply Hd. apply in_or_app; auto. }
    exists h2, (ev1 ++ ev2). split; [apply Forall2_app; auto|]. split; [eapply went_app; eauto|].
    rewrite <- (app_assoc tab) in P2. rewrite <- P2, parseContent_step, Hx. rewrite Hx in P1. cbn [app done].
    destruct (name_start_facts E OK c Hcs) as (C1 & C2 & C3 & C4 & C5 & C6 & C7).
    destruct (elem_prefix c (y ++ s ++ r) C3 C6 C7) as (-> & -> & -> & -> & ->).
    refine (bind_ret _ _ _ (wrap S (parseElement E S H n (parseContent E S H n))) (fun _ => parseContent E S H n) _ tt _ _).
    apply wrap_ret. exact P1.
  - intros k live ns n t evs1 d1 s evs d Hi _ IH1 Hn1 Hd1 _ IH2. eapply entity_ref; eauto.
  - intros k live ns p l t a d u Hq Ha Hy Hr. exists (Datatypes.S (List.length t)).
    intros n r tab nd ht z Hn Ht Hk Hkn Hsc Hnd Hd. eapply empty_element; eauto.
  - intros k live ns p l t a d u s evs d1 Hq Ha Hy Hr _ IHc Hsl.
    destruct (full_element k live ns p l t a d u s evs d1 Hq Ha Hy Hr IHc Hsl) as (N & HN). exists N.
    intros n r tab nd ht z Hn Ht Hk Hkn Hsc Hnd Hd. apply HN; auto. intros Hi. apply Hd. rewrite map_app. apply in_or_app; auto.
Qed.
End D.

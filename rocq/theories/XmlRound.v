(* What is written for a tidy tree is in the grammar and mirrors the tree. *)
From Verif Require Import Base Utf8 Utf8Proofs Escape XmlSpec EscapeProofs Scan Parser Grammar LexProofs TextProofs Complete DocComplete
  Heap Dump Xml XmlDump Mirror Tidy XmlParse.
From Verif Require Import XmlSpec Grammar.

Lemma legal_valid c : legal c = true -> valid_rune c = true /\ xml_char c = true /\ c <> 65533.
Proof.
  unfold legal. intros H. apply andb_true_iff in H as [H1 H2]. split; [apply xml_char_valid; assumption|]. split; [assumption|].
  intros ->. discriminate.
Qed.
Lemma legals_valid rs : legals rs -> Forall (fun r => valid_rune r = true) rs.
Proof. intros H. eapply Forall_impl; [|exact H]. intros c Hc. apply (legal_valid c Hc). Qed.
Lemma legal_chunk r : legal r = true -> chunk_ok (r, encode_rune r).
Proof.
  intros H. unfold chunk_ok. cbn [fst snd]. split; [apply legal_valid, H|]. split; [apply encode_bytes|]. split; [apply encode_nonempty|auto].
Qed.
Lemma chunks_utf8 rs : Forall (fun r => valid_rune r = true) rs -> chunks (utf8 rs) = map (fun r => (r, encode_rune r)) rs.
Proof.
  induction 1 as [|r rs H1 H2 IH]; [reflexivity|]. unfold utf8. cbn [flat_map map]. rewrite chunks_encode by exact H1. f_equal. exact IH.
Qed.

(* ---- one character of a text ---- *)
Inductive written (r : Z) : list Z -> Prop :=
| wr_self : r <> 38 -> r <> 60 -> r <> 62 -> r <> 13 -> written r [r]
| wr_ref b : (forall rest, reference (b ++ rest) = Some (r, rest)) -> written r (38 :: b).
Lemma utf8_ref b : Forall (fun x => 0 <= x < 128) b -> utf8 (38 :: b ++ [59]) = 38 :: b ++ [59].
Proof. intros H. apply utf8_ascii. constructor; [lia|]. apply Forall_app. split; [exact H|]. constructor; [lia|constructor]. Qed.
Lemma esc_text_written r : legal r = true -> exists s, esc_text1 false (r, encode_rune r) = utf8 s /\ written r s.
Proof.
  intros H. destruct (legal_valid r H) as (V & X & N). pose proof (legal_chunk r H) as C.
  assert (R13 : r = 13 \/ r <> 13) by lia. destruct R13 as [->|R13].
  { exists (s_ "&#13;"). split; [reflexivity|]. apply (wr_ref 13 (s_ "#13;")). intros rest. reflexivity. }
  destruct (esc_text1_cases false _ C) as [(b & _ & Eb & Rb & Ab & _)|(r' & -> & Er & N1 & N2 & N3 & _)]; cbn [fst] in *.
  - exists (38 :: b ++ [59]). rewrite utf8_ref by exact Ab. split; [exact Eb|]. apply wr_ref. intros rest. rewrite <- app_assoc. apply Rb, X.
  - assert (Sr : shown r = r) by (unfold shown; rewrite X; reflexivity). rewrite Sr in *. exists [r]. split; [unfold utf8; cbn; rewrite app_nil_r; exact Er|]. apply wr_self; assumption.
Qed.

(* ---- attribute values ---- *)
Lemma esc_attr_written r : legal r = true -> exists s, esc_attr1 (r, encode_rune r) = utf8 s /\
  ((s = [r] /\ r <> 38 /\ r <> 60 /\ r <> 34 /\ r <> 9 /\ r <> 10 /\ r <> 13) \/
   exists b, s = 38 :: b /\ forall rest, reference (b ++ rest) = Some (r, rest)).
Proof.
  intros H. destruct (legal_valid r H) as (V & X & N). pose proof (legal_chunk r H) as C.
  destruct (esc_attr1_cases _ C) as [(b & _ & Eb & Rb & Ab & _)|(r' & -> & Er & Ns)]; cbn [fst] in *.
  - exists (38 :: b ++ [59]). rewrite utf8_ref by exact Ab. split; [exact Eb|]. right. eexists. split; [reflexivity|]. intros rest. rewrite <- app_assoc. apply Rb, X.
  - assert (Sr : shown r = r) by (unfold shown; rewrite X; reflexivity). rewrite Sr in *. exists [r]. split; [unfold utf8; cbn; rewrite app_nil_r; exact Er|]. left. tauto.
Qed.
Lemma utf8_cons r rs : utf8 (r :: rs) = utf8 [r] ++ utf8 rs.
Proof. apply (utf8_app [r] rs). Qed.
Lemma attr_value rs : legals rs -> exists lit, escapeAttrValue (utf8 rs) = utf8 lit /\ attlit 34 lit (utf8 (amp_escaped rs)).
Proof.
  intros H. unfold escapeAttrValue. rewrite chunks_utf8 by (apply legals_valid, H).
  induction H as [|r rs Hr Hrs IH]; [exists []; split; [reflexivity|constructor]|]. destruct IH as (lit & El & Al).
  destruct (legal_valid r Hr) as (V & X & N). cbn [map flat_map]. rewrite El.
  destruct (esc_attr_written r Hr) as (s & Es & Cs). rewrite Es.
  unfold amp_escaped. cbn [flat_map]. fold (amp_escaped rs). rewrite utf8_app.
  destruct Cs as [(-> & N1 & N2 & N3 & N4 & N5 & N6)|(b & -> & Rb)].
  - exists ([r] ++ lit). split; [symmetry; apply utf8_app|]. destruct (Z.eqb_spec r 38); [contradiction|]. cbn [app].
    destruct (blank r) eqn:B.
    + assert (r = 32) by (unfold blank in B; lia). subst r. change (utf8 [32] ++ utf8 (amp_escaped rs)) with (32 :: utf8 (amp_escaped rs)).
      apply al_blank; [reflexivity|discriminate|exact Al].
    + apply al_char; assumption.
  - exists ((38 :: b) ++ lit). split; [symmetry; apply utf8_app|]. cbn [app]. destruct (Z.eqb_spec r 38) as [->|N38].
    + change (utf8 (s_ "&#38;")) with (s_ "&#38;"). eapply al_amp; [apply Rb|exact Al].
    + eapply al_ref; [apply Rb|exact N38|exact N|exact Al].
Qed.

Section Round.
Variable E : env.
Hypothesis OK : env_ok E.

(* ---- the attributes of a tag ---- *)
Lemma name_utf8 p l : utf8 (qname p l) = att_name (utf8 p) (utf8 l).
Proof.
  unfold qname, att_name. destruct p as [|c p]; [reflexivity|]. rewrite !utf8_app. change (utf8 [58]) with (s_ ":").
  destruct (utf8 (c :: p)) eqn:U; [|reflexivity]. apply utf8_nil in U. discriminate.
Qed.
Lemma atts_round l : Forall (tidy_att E) l -> exists t a, utf8 t = flat_map att_text l /\ atts E t a [] /\ mirrors_atts a l.
Proof.
  induction 1 as [|x l Hx Hl IH].
  - exists [], []. split; [reflexivity|]. split; [apply at_end; constructor|constructor].
  - destruct IH as (t & a & Et & At & Mt). destruct Hx as (p & n & rs & Q & X1 & X2 & L & ->).
    destruct (attr_value rs L) as (lit & El & Al).
    exists ([32] ++ qname p n ++ [] ++ [61] ++ [] ++ [34] ++ lit ++ [34] ++ t), (AAttr (utf8 n) (utf8 p) (utf8 (amp_escaped rs)) :: a).
    split; [|split].
    + cbn [flat_map]. unfold att_text at 1. cbn [fst snd]. rewrite El, <- Et.
      change (s_ "=""") with (utf8 [61; 34]). change (s_ """") with (utf8 [34]). change (s_ " ") with (utf8 [32]).
      rewrite <- !utf8_app. f_equal. rewrite <- !app_assoc. reflexivity.
    + apply at_attr; auto; try (constructor; fail); [discriminate|repeat constructor].
    + rewrite name_utf8. apply ma_attr; [apply legals_valid, L|exact Mt].
Qed.
Lemma uri_lit q u : (q = 34 \/ q = 39) -> ~ In q u -> tidy_uri u -> attlit q u (utf8 u).
Proof.
  intros Hq Nq (_ & L & N60 & N38 & N9 & N10 & N13 & _).
  revert Nq N60 N38 N9 N10 N13. induction L as [|c u Hc L IH]; intros; [constructor|]. rewrite utf8_cons.
  assert (IH' : attlit q u (utf8 u)) by (apply IH; intros X; [apply Nq|apply N60|apply N38|apply N9|apply N10|apply N13]; right; exact X).
  destruct (blank c) eqn:B.
  - assert (c = 32) as ->.
    { unfold blank in B. assert (c = 32 \/ c = 9 \/ c = 10 \/ c = 13) as [X|[X|[X|X]]] by lia; [exact X|exfalso; subst c..]; [apply N9|apply N10|apply N13]; left; reflexivity. }
    change (utf8 [32] ++ utf8 u) with (32 :: utf8 u). apply al_blank; [reflexivity|discriminate|exact IH'].
  - apply al_char; auto; intros ->; [apply Nq|apply N60|apply N38]; left; reflexivity.
Qed.
Lemma quoted_uri u : tidy_uri u -> exists q, (q = 34 \/ q = 39) /\ ~ In q u /\ dumpQuotedString (utf8 u) = utf8 ([q] ++ u ++ [q]) /\ utf8 u <> [].
Proof.
  intros (Ne & L & _ & _ & _ & _ & _ & Nq).
  assert (Iff : forall q, 0 <= q < 128 -> In q (utf8 u) -> In q u).
  { intros q Hq. clear - Hq. induction u as [|c u IH]; [auto|]. rewrite utf8_cons. intros H. apply in_app_or in H as [H|H]; [|right; auto].
    left. unfold utf8 in H. cbn in H. rewrite app_nil_r in H. apply encode_high in H; [apply H|lia]. }
  destruct (quoted_ok (utf8 u)) as (q & Hq & Nn & Eq).
  { intros [H1 H2]. apply Nq. split; apply Iff; auto; lia. }
  exists q. split; [exact Hq|]. split; [|split].
  - intros X. apply Nn. clear - X Hq. induction u as [|c u IH]; [destruct X|]. rewrite utf8_cons. apply in_or_app.
    destruct X as [->|X]; [left; destruct Hq; subst q; left; reflexivity|right; auto].
  - rewrite Eq, !utf8_app. destruct Hq; subst q; reflexivity.
  - intros X. apply utf8_nil in X. contradiction.
Qed.
Lemma ns_text_cons p u : p <> [] -> u <> [] -> ns_text (p, u) = s_ " xmlns:" ++ p ++ s_ "=" ++ dumpQuotedString u.
Proof. intros Hp Hu. destruct u; [contradiction|]. destruct p; [contradiction|]. reflexivity. Qed.
Lemma ns_text_default u : u <> [] -> ns_text ([], u) = s_ " xmlns=" ++ dumpQuotedString u.
Proof. intros Hu. destruct u; [contradiction|]. reflexivity. Qed.

Lemma defs_round defs l : tidy_defs E defs l -> Forall (tidy_att E) l ->
  exists t a, utf8 t = flat_map ns_text defs ++ flat_map att_text l /\ atts E t a defs /\ mirrors_atts a l.
Proof.
  induction 1 as [l|u Hu|d ds l Hd Hds IH]; intros A.
  - cbn [flat_map app]. apply atts_round, A.
  - destruct (quoted_uri u Hu) as (q & Hq & Nq & Eq & Ne).
    exists ([32] ++ s_ "xmlns" ++ [] ++ [61] ++ [] ++ [q] ++ u ++ [q]), []. split; [|split].
    + cbn [flat_map]. rewrite ns_text_default by exact Ne. rewrite Eq, !app_nil_r. change (s_ " xmlns=") with (utf8 (s_ " xmlns=")).
      rewrite <- !utf8_app. reflexivity.
    + apply at_default; auto; try (constructor; fail); [discriminate|repeat constructor|apply uri_lit; auto].
    + constructor.
  - destruct (IH A) as (t & a & Et & At & Mt). destruct Hd as (n & u & Hn & N1 & N2 & Hu & N3 & Uo & ->).
    destruct (quoted_uri u Hu) as (q & Hq & Nq & Eq & Ne).
    exists ([32] ++ qname (s_ "xmlns") n ++ [] ++ [61] ++ [] ++ [q] ++ u ++ [q] ++ t), a. split; [|split; [|exact Mt]].
    + cbn [flat_map]. rewrite ns_text_cons; [|intros X; apply utf8_nil in X; subst n; destruct Hn as [[] _]|exact Ne].
      rewrite Eq, <- app_assoc, <- Et. change (s_ " xmlns:") with (utf8 (s_ " xmlns:")). change (s_ "=") with (utf8 (s_ "=")).
      rewrite <- !utf8_app. f_equal. change (qname (s_ "xmlns") n) with (s_ "xmlns" ++ [58] ++ n). rewrite <- !app_assoc. reflexivity.
    + apply at_decl; auto; try (constructor; fail); [discriminate|repeat constructor|apply uri_lit; auto].
Qed.

(* ---- text ---- *)
Definition no_gt (s : list Z) : Prop := hd 0 s <> 62 /\ (forall x, s <> 93 :: 62 :: x) /\ (forall x, s <> 47 :: 62 :: x).

Lemma element_hd ns x evs d : element E ns x evs d -> exists c t, x = 60 :: c :: t.
Proof. intros H. destruct (elem_head E _ _ _ _ H) as (c & t & -> & _). eauto. Qed.
Lemma in_run c t s : ~ contains (s_ "]]>") t -> c <> 62 -> no_gt (t ++ s) -> t <> [] -> ~ contains (s_ "]]>") (c :: t).
Proof.
  intros N C (G1 & G2 & G3) Ne (a & b & Eq). destruct a as [|x a]; cbn [app] in Eq; change (s_ "]]>") with [93; 93; 62] in *.
  - cbn in Eq. injection Eq as -> Et. subst t. apply (G2 (b ++ s)). reflexivity.
  - injection Eq as -> Et. apply N. exists a, b. exact Et.
Qed.

Lemma content_char ns r w s evs d xs : legal r = true -> written r w -> content E ns s evs d -> mirrors evs xs -> no_gt s ->
  exists evs', content E ns (w ++ s) evs' d /\ mirrors evs' (join (XText (utf8 [r])) xs) /\ no_gt (w ++ s).
Proof.
  intros Lr W C M G. destruct (legal_valid r Lr) as (V & X & N). destruct W as [N1 N2 N3 N4|b Rb].
  - assert (G' : no_gt ([r] ++ s)).
    { destruct G as (G1 & G2 & G3). cbn [app]. split; [exact N3|]. split; intros y; [intros [= -> Y]|intros [= -> Y]]; subst s; apply G1; reflexivity. }
    assert (Sm : starts_markup s \/ ~ starts_markup s).
    { unfold starts_markup. destruct s as [|c s]; [auto|]. cbn [hd]. destruct (Z.eq_dec c 60); [auto|]. destruct (Z.eq_dec c 38); [auto|].
      right. intros [Y|[Y|Y]]; [discriminate|lia|lia]. }
    destruct Sm as [Sm|Sm].
    + exists (ECharacters (utf8 [r]) :: evs). split; [|split; [apply mirrors_char; [left; reflexivity|exact M]|exact G']].
      apply c_text; [|apply eol_char; [lia|constructor]|exact Sm|exact C].
      split; [discriminate|]. split; [constructor; [exact Lr|constructor]|]. split; [intros [Y|[]]; lia|]. split; [intros [Y|[]]; lia|].
      intros (a & b & Y). apply (f_equal (@List.length Z)) in Y. rewrite !app_length in Y. cbn in Y. lia.
    + inversion C as [|t t' s0 evs0 d0 Tr Eo Ss C0|t x s0 evs0 d0 Rf Nx C0|b b' s0 evs0 d0 Cb Eo C0|t s0 evs0 d0 Pt C0|t b x s0 evs0 d0 Pt Nb Bb Px C0|
        b b' s0 evs0 d0 Cb Eo C0|x s0 evs1 d1 evs0 d0 El C0]; subst; try (exfalso; apply Sm; (left; reflexivity) || (right; left; reflexivity) || (right; right; reflexivity)).
      * destruct Tr as (T1 & T2 & T3 & T4 & T5).
        exists (ECharacters (utf8 (r :: t')) :: evs0). split; [|split; [|exact G']].
        -- rewrite app_assoc. apply c_text; [|cbn [app]; apply eol_char; [lia|exact Eo]|exact Ss|exact C0].
           split; [discriminate|]. split; [constructor; assumption|]. split; [intros [Y|Y]; [lia|auto]|]. split; [intros [Y|Y]; [lia|auto]|].
           eapply in_run; eauto.
        -- rewrite utf8_cons. clear - M. inversion M as [|tevs ts evs' xs' Ne F Ns M'| | |]; subst.
           destruct tevs as [|e tevs]; [contradiction|]. inversion F as [|? t ? ts' He F']; subst. cbn [app] in *.
           match goal with Y : e :: _ = _ |- _ => injection Y as -> <- end.
           assert (t = utf8 t') as -> by (destruct He as [[= ->]|He]; [reflexivity|discriminate]).
           cbn [join concat]. rewrite app_assoc. apply (mi_text (_ :: tevs) (_ :: ts')); [discriminate|constructor; [left; reflexivity|exact F']|exact Ns|exact M'].
      * destruct (element_hd _ _ _ _ El) as (c & t & ->). exfalso. apply Sm. right; left; reflexivity.
  - exists (ECharacters (utf8 [r]) :: evs). cbn [app]. split; [|split].
    + eapply c_ref; [apply Rb|exact N|exact C].
    + apply mirrors_char; [left; reflexivity|exact M].
    + split; [discriminate|]. split; intros y; discriminate.
Qed.

Lemma glue_text r rs xs : join (XText (utf8 [r])) (glue (XText (utf8 rs)) xs) = glue (XText (utf8 (r :: rs))) xs.
Proof.
  rewrite (utf8_cons r rs). assert (Ne : utf8 [r] <> []) by (intros X; apply utf8_nil in X; discriminate).
  destruct (utf8 [r]) as [|b t] eqn:U; [contradiction|]. destruct (utf8 rs) as [|b' t'] eqn:U'; cbn [glue].
  - rewrite app_nil_r. destruct xs as [|[]]; reflexivity.
  - destruct xs as [|[]]; cbn [join glue app]; try reflexivity. rewrite <- app_assoc. reflexivity.
Qed.
Lemma content_text ns rs : legals rs -> forall s evs d xs, content E ns s evs d -> mirrors evs xs -> no_gt s ->
  exists src evs', utf8 src = escapeText (utf8 rs) false /\ content E ns (src ++ s) evs' d /\
    mirrors evs' (glue (XText (utf8 rs)) xs) /\ no_gt (src ++ s).
Proof.
  intros L. unfold escapeText. rewrite chunks_utf8 by (apply legals_valid, L).
  induction L as [|r rs Hr L IH]; intros s evs d xs C M G.
  - exists [], evs. auto.
  - destruct (IH s evs d xs C M G) as (src & evs1 & Es & C1 & M1 & G1).
    destruct (esc_text_written r Hr) as (w & Ew & Ww).
    destruct (content_char ns r w _ _ _ _ Hr Ww C1 M1 G1) as (evs2 & C2 & M2 & G2).
    exists (w ++ src), evs2. rewrite <- app_assoc. split; [|split; [exact C2|split; [|exact G2]]].
    + rewrite utf8_app. cbn [map flat_map]. rewrite Ew, Es. reflexivity.
    + rewrite <- glue_text. exact M2.
Qed.

(* ---- elements ---- *)
Definition scope_ok (ns : list nspair) : Prop := Forall (fun d => snd d <> []) ns.
Lemma defs_scope defs l : tidy_defs E defs l -> Forall (fun d : nspair => snd d <> []) defs.
Proof.
  induction 1 as [l|u Hu|d ds l Hd Hds IH]; [constructor|repeat constructor|constructor; [|exact IH]].
  - destruct Hu as [Hu _]. cbn. intros X. apply utf8_nil in X. contradiction.
  - destruct Hd as (n & u & _ & _ & _ & [Hu _] & _ & _ & ->). cbn. intros X. apply utf8_nil in X. contradiction.
Qed.
Lemma scope_app defs l ns : tidy_defs E defs l -> scope_ok ns -> scope_ok (rev defs ++ ns).
Proof. intros D S. apply Forall_app. split; [apply Forall_rev, (defs_scope _ _ D)|exact S]. Qed.
Lemma bound_in ns p u : bound ns p = Some u -> exists p', In (p', u) ns.
Proof.
  induction ns as [|[p' u'] ns IH]; cbn; [discriminate|]. destruct (str_eqb p' p); [intros [= ->]; exists p'; left; reflexivity|].
  intros H. destruct (IH H) as (q & Hq). exists q. right. exact Hq.
Qed.
Lemma quoted_round ns p l u : scope_ok ns -> resolves ns (utf8 p) u -> quoted_name (space (utf8 p) u) (utf8 l) = utf8 (qname p l).
Proof.
  intros S R. rewrite name_utf8. unfold resolves in R. destruct (bound ns (utf8 p)) as [u'|] eqn:B.
  - subst u'. destruct (bound_in _ _ _ B) as (p' & I). unfold scope_ok in S. rewrite Forall_forall in S. apply S in I. cbn in I.
    unfold space. destruct u; [contradiction|]. cbn [quoted_name att_name]. reflexivity.
  - destruct R as [-> ->]. reflexivity.
Qed.

Definition rounds (ns : list nspair) (kids : list xnode) : Prop :=
  exists src evs, utf8 src = flat_map node_text kids /\ content E ns src evs (flat_map defs_of kids) /\ mirrors evs (norms kids) /\ no_gt src.
Definition elem_rounds (ns : list nspair) (x : xnode) : Prop :=
  exists src l p u a defs rest, utf8 src = node_text x /\ element E ns src (EStartElement l p u (map Some defs) a :: rest) (defs_of x) /\
    (exists nm sp at_ kids, x = XElem nm sp defs at_ kids) /\
    forall evs xs, mirrors evs xs -> mirrors ((EStartElement l p u (map Some defs) a :: rest) ++ evs) (norm x :: xs).

Lemma element_round ns p l u defs at_ kids : scope_ok ns -> qnamed E p l -> tidy_defs E defs at_ -> Forall (tidy_att E) at_ ->
  NoDup (map fst at_) -> resolves (rev defs ++ ns) (utf8 p) u -> rounds (rev defs ++ ns) kids ->
  elem_rounds ns (XElem (utf8 l) (space (utf8 p) u) defs at_ kids).
Proof.
  intros S Q D A Nd R (ks & kevs & Ek & Ck & Mk & Gk).
  destruct (defs_round defs at_ D A) as (t & a & Et & At & Mt).
  pose proof (quoted_round _ _ l _ (scope_app _ _ _ D S) R) as Qn.
  assert (Tag : tag_text (space (utf8 p) u) (utf8 l) defs at_ = utf8 (s_ "<" ++ qname p l ++ t)).
  { unfold tag_text. rewrite Qn, <- Et, !utf8_app. reflexivity. }
  destruct kids as [|k kids].
  - exists (s_ "<" ++ qname p l ++ t ++ s_ "/>"), (utf8 l), (utf8 p), u, a, defs, [EEndElement (utf8 l) (utf8 p) u].
    split; [|split; [|split]].
    + cbn [node_text]. rewrite Tag. change (s_ "/>") with (utf8 (s_ "/>")) at 2. rewrite <- utf8_app, <- !app_assoc. reflexivity.
    + cbn [defs_of flat_map]. rewrite app_nil_r. apply e_empty; assumption.
    + eauto.
    + intros evs xs M. cbn [norm fold_right]. apply (mi_elem _ _ _ _ _ _ [] []); auto. constructor.
  - exists (s_ "<" ++ qname p l ++ t ++ s_ ">" ++ ks ++ s_ "</" ++ qname p l ++ s_ ">"), (utf8 l), (utf8 p), u, a, defs, (kevs ++ [EEndElement (utf8 l) (utf8 p) u]).
    split; [|split; [|split]].
    + cbn [node_text]. rewrite Tag, <- Ek, Qn. change (s_ ">") with (utf8 (s_ ">")). change (s_ "</") with (utf8 (s_ "</")).
      rewrite <- !utf8_app. f_equal. change (utf8 (s_ ">")) with (s_ ">"). change (utf8 (s_ "</")) with (s_ "</"). rewrite <- !app_assoc. reflexivity.
    + cbn [defs_of]. apply (e_full E ns p l t a defs u ks kevs); auto. apply Gk.
    + eauto.
    + intros evs xs M. cbn [norm]. cbn [app]. rewrite <- app_assoc. apply mi_elem; auto.
Qed.

Scheme tidy_mut := Induction for tidy Sort Prop with tidies_mut := Induction for tidies Sort Prop.
Combined Scheme tidy_tidies from tidy_mut, tidies_mut.

Lemma elem_content ns x s evs d xs : elem_rounds ns x -> content E ns s evs d -> mirrors evs xs ->
  exists src evs', utf8 src = node_text x /\ content E ns (src ++ s) evs' (defs_of x ++ d) /\ mirrors evs' (glue (norm x) xs) /\ no_gt (src ++ s).
Proof.
  intros (src & l & p & u & a & defs & rest & Es & El & (nm & sp & at_ & kids & ->) & Mi) C M.
  eexists src, _. split; [exact Es|]. split; [eapply c_elem; eassumption|]. split; [apply Mi, M|].
  destruct (element_hd _ _ _ _ El) as (c & t & ->). split; [discriminate|]. split; intros y; discriminate.
Qed.

Lemma round_all :
  (forall ns x, tidy E ns x -> scope_ok ns ->
     (forall s evs d xs, content E ns s evs d -> mirrors evs xs -> no_gt s ->
      exists src evs', utf8 src = node_text x /\ content E ns (src ++ s) evs' (defs_of x ++ d) /\ mirrors evs' (glue (norm x) xs) /\ no_gt (src ++ s)) /\
     (forall nm sp defs at_ kids, x = XElem nm sp defs at_ kids -> elem_rounds ns x)) /\
  (forall ns l, tidies E ns l -> scope_ok ns -> rounds ns l).
Proof.
  apply tidy_tidies.
  - intros ns rs L S. split; [|intros; discriminate]. intros s evs d xs C M G. cbn [node_text defs_of norm app]. eapply content_text; eassumption.
  - intros ns rs Ct Eo S. split; [|intros; discriminate]. intros s evs d xs C M G. cbn [node_text defs_of norm app glue].
    exists (s_ "<!--" ++ rs ++ s_ "-->"), (EComment (utf8 rs) :: evs). split; [rewrite !utf8_app; reflexivity|]. rewrite <- !app_assoc.
    split; [apply c_comment; assumption|]. split; [constructor; exact M|]. split; [discriminate|]. split; intros y; discriminate.
  - intros ns p l u defs at_ kids Q D A Nd R T IH S.
    assert (ER : elem_rounds ns (XElem (utf8 l) (space (utf8 p) u) defs at_ kids)).
    { apply element_round; auto. apply IH. eapply scope_app; eassumption. }
    split; [|intros; exact ER]. intros s evs d xs C M G. eapply elem_content; eassumption.
  - intros ns S. exists [], []. split; [reflexivity|]. split; [constructor|]. split; [constructor|]. split; [discriminate|]. split; intros y; discriminate.
  - intros ns x xs Tx IHx Ts IHs S. destruct (IHs S) as (src & evs & Es & Cs & Ms & Gs). destruct (IHx S) as [Hx _].
    destruct (Hx _ _ _ _ Cs Ms Gs) as (src1 & evs1 & Es1 & C1 & M1 & G1).
    exists (src1 ++ src), evs1. split; [rewrite utf8_app, Es1, Es; reflexivity|]. auto.
Qed.

(* ---- documents ---- *)
Definition lines (l : list xnode) : str := flat_map (fun x => node_text x ++ [10]) l.
Lemma comments_round ns l : Forall is_comment l -> tidies E ns l -> exists src evs, misc E src evs /\ utf8 src = lines l /\
  (forall evs2 xs, mirrors evs2 xs -> mirrors (evs ++ evs2) (l ++ xs)) /\ (forall x, In x evs -> exists s, x = EComment s).
Proof.
  induction l as [|x l IH]; intros F T.
  - exists [], []. split; [constructor|]. split; [reflexivity|]. split; [auto|intros y []].
  - inversion F as [|? ? [s ->] F']; subst. inversion T as [|? ? ? Tx Tl]; subst. destruct (IH F' Tl) as (src & evs & M & Es & Mi & Cm).
    inversion Tx as [|? rs Ct Eo|]; subst.
    exists (s_ "<!--" ++ rs ++ s_ "-->" ++ (10 :: src)), (EComment (utf8 rs) :: evs). split; [|split; [|split]].
    + apply m_comment; auto. apply m_blank; [reflexivity|exact M].
    + unfold lines. cbn [flat_map node_text]. fold (lines l). rewrite <- Es, <- !app_assoc. rewrite !utf8_app, utf8_cons. reflexivity.
    + intros evs2 xs M2. cbn [app]. constructor. auto.
    + intros y [<-|Hy]; eauto.
Qed.
Lemma tidies_app ns a : forall b, tidies E ns (a ++ b) -> tidies E ns a /\ tidies E ns b.
Proof. induction a as [|x a IH]; intros b H; [split; [constructor|exact H]|]. inversion H; subst. destruct (IH b); [assumption|]. split; [constructor; assumption|assumption]. Qed.

(* version, encoding and standalone status as a document can carry them *)
Lemma root_of e1 l p u ns a r : (forall x, In x e1 -> exists s, x = EComment s) -> root_spaces (e1 ++ EStartElement l p u ns a :: r) = ns.
Proof.
  induction e1 as [|x e1 IH]; intros H; [reflexivity|]. destruct (H x (or_introl eq_refl)) as (s & ->).
  change (root_spaces ((EComment s :: e1) ++ EStartElement l p u ns a :: r)) with (root_spaces (e1 ++ EStartElement l p u ns a :: r)).
  apply IH. intros y Hy. apply H. right. exact Hy.
Qed.

Lemma norms_comments l r : Forall is_comment l -> norms (l ++ r) = l ++ norms r.
Proof. induction 1 as [|x l [s ->] F IH]; [reflexivity|]. cbn [app norms fold_right norm glue]. f_equal. exact IH. Qed.
Lemma norms_all_comments l : Forall is_comment l -> norms l = l.
Proof. intros F. rewrite <- (app_nil_r l) at 1. rewrite norms_comments by exact F. apply app_nil_r. Qed.

Lemma document_round hd v enc sa l : xml_decl hd v enc sa -> (forall n, enc = Some n -> utf8_name n) -> tidy_document E l ->
  exists src evs d, utf8 src = utf8 (hd ++ [10]) ++ lines l /\
    document E src {| di_version := v; di_encoding := enc; di_standalone := sa |} evs d /\ declared_once evs d /\
    mirrors evs (norms l) /\ no_text (norms l).
Proof.
  intros Xd Ue (T & c1 & nm & sp & defs & at_ & kids & c2 & -> & F1 & F2 & Nd & Df).
  apply tidies_app in T as [T1 T]. inversion T as [|? x xs Tx T2]; subst. clear T.
  destruct (comments_round _ _ F1 T1) as (s1 & e1 & M1 & Es1 & Mi1 & Cm1).
  destruct (comments_round _ _ F2 T2) as (s2 & e2 & M2 & Es2 & Mi2 & Cm2).
  destruct (proj2 (proj1 round_all _ _ Tx (Forall_nil _)) _ _ _ _ _ eq_refl) as (src & l & p & u & a & defs' & rest & Es & El & (nm' & sp' & at' & kids' & Eq) & Mi).
  injection Eq as <- <- <- <- <-.
  set (x := XElem nm sp defs at_ kids) in *.
  exists (hd ++ (10 :: s1) ++ src ++ (10 :: s2)), (e1 ++ (EStartElement l p u (map Some defs) a :: rest) ++ e2), (defs_of x).
  split; [|split; [|split; [|split]]].
  - unfold lines. rewrite !flat_map_app. cbn [flat_map]. fold (lines c1) (lines c2). rewrite <- Es1, <- Es2, <- Es, app_nil_r.
    rewrite !utf8_app, (utf8_cons 10 s1), (utf8_cons 10 s2). rewrite <- !app_assoc. reflexivity.
  - apply d_decl; auto; apply m_blank; auto.
  - split; [exact Nd|]. intros H. apply Df in H. cbn [app]. rewrite root_of by exact Cm1.
    apply in_map_iff in H as ([k w] & Hk & Hin). cbn in Hk. subst k. exists w. apply in_map_iff. exists ([], w). auto.
  - rewrite norms_comments by exact F1. apply Mi1. cbn [app norms fold_right]. fold (norms c2). rewrite (norms_all_comments c2 F2).
    apply (Mi e2 c2). rewrite <- (app_nil_r e2), <- (app_nil_r c2). apply Mi2. constructor.
  - rewrite norms_comments by exact F1. cbn [app norms fold_right]. fold (norms c2). rewrite (norms_all_comments c2 F2).
    rewrite Forall_forall in F1, F2. intros s H. apply in_app_or in H as [H|[H|H]]; [apply F1 in H as [? H]|cbn in H|apply F2 in H as [? H]]; discriminate.
Qed.
End Round.

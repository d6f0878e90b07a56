(* Documents with declarations: what is written for one is in the grammar and
   stands for the same document. *)
From Coq Require Import Permutation.
From Verif Require Import Escape EscapeProofs Heap Dump TreeBuilder TreeShape Xml XmlDump Mirror XmlBuild NestedProofs Tidy XmlParse XmlGrammar XmlRound XmlFinal ContentDump.
From Verif Require Import Base Utf8 Utf8Proofs XmlSpec Encoding Scan ScanProofs Parser LexProofs TextProofs Complete DocComplete
  Content ContentProofs Doctype DoctypeAttr DoctypeContent DoctypeSubset DoctypeDoc DoctypeNodes DoctypeTree DoctypeKept.
From Verif Require Import XmlSpec Grammar.
Local Open Scope Z_scope.

(* ---- literals in either kind of quotes ---- *)
Lemma number_part base val : (forall c d, val c = Some d -> c <> 34 /\ c <> 39) -> forall s seen acc x r,
  number base val seen acc s = Some (x, r) -> exists u, s = u ++ r /\ ~ In 34 u /\ ~ In 39 u.
Proof.
  intros Hv. induction s as [|c s IH]; intros seen acc x r H; [discriminate|]. cbn [number] in H.
  destruct (Z.eqb_spec c 59) as [->|].
  - destruct seen; [|discriminate]. injection H as <- <-. exists [59]. split; [reflexivity|]. split; intros [X|[]]; discriminate.
  - destruct (val c) as [d|] eqn:V; [|discriminate]. apply IH in H as (u & -> & U1 & U2). exists (c :: u). split; [reflexivity|].
    destruct (Hv c d V). split; intros [X|X]; auto.
Qed.
Lemma dec_plain c d : dec_val c = Some d -> c <> 34 /\ c <> 39.
Proof. unfold dec_val. destruct ((48 <=? c) && (c <=? 57)) eqn:X; [|discriminate]. lia. Qed.
Lemma hex_plain c d : hex_val c = Some d -> c <> 34 /\ c <> 39.
Proof.
  unfold hex_val. destruct ((48 <=? c) && (c <=? 57)) eqn:X; [lia|]. destruct ((65 <=? c) && (c <=? 70)) eqn:Y; [lia|].
  destruct ((97 <=? c) && (c <=? 102)) eqn:Z; [lia|discriminate].
Qed.
Lemma reference_part t x r : reference t = Some (x, r) -> exists u, t = u ++ r /\ ~ In 34 u /\ ~ In 39 u.
Proof.
  intros H. destruct (reference_cases _ _ _ H) as [(hex & b & Eq & Hn & _)|(n & -> & _ & Hn)].
  - assert (P : exists u, b = u ++ r /\ ~ In 34 u /\ ~ In 39 u).
    { destruct hex; cbn [refNumber] in Hn; eapply number_part; try exact Hn; [exact hex_plain|exact dec_plain]. }
    destruct P as (u & -> & U1 & U2). destruct hex; cbn [refPrefix app] in Eq; injection Eq as ->.
    + exists (35 :: 120 :: u). split; [reflexivity|]. split; intros [X|[X|X]]; try discriminate; auto.
    + exists (35 :: u). split; [reflexivity|]. split; intros [X|X]; try discriminate; auto.
  - exists (n ++ [59]). rewrite <- app_assoc. split; [reflexivity|].
    destruct Hn as [<-|[<-|[<-|[<-|[<-|[]]]]]]; split; vm_compute; intuition discriminate.
Qed.

Section Literals.
Variable E : env.
Hypothesis OK : env_ok E.
Lemma name_quote n q : q = 34 \/ q = 39 -> ncname E n -> ~ In q n.
Proof.
  intros Hq (H & _) X. destruct n as [|c n]; [destruct H|]. destruct H as [Hc Hn]. rewrite Forall_forall in Hn.
  destruct X as [->|X]; [unfold name_start in Hc|apply Hn in X; unfold name_part in X; rewrite (ok_digit E OK) in X by lia].
  - rewrite (ok_letter E OK) in Hc by lia. destruct Hq; subst q; discriminate.
  - rewrite (ok_letter E OK) in X by lia. destruct Hq; subst q; discriminate.
Qed.
Lemma entlit_free q lit v : q = 34 \/ q = 39 -> entlit E q lit v -> ~ In q lit.
Proof.
  intros Hq. induction 1 as [|c t v L C1 C2 C3 C4 _ IH|t x t' v R _ _ IH|n t v N _ IH].
  - intros [].
  - intros [X|X]; auto.
  - destruct (reference_part _ _ _ R) as (u & Eu & U1 & U2). rewrite Eu. intros [X|X]; [destruct Hq; subst; discriminate|].
    apply in_app_or in X as [X|X]; [|auto]. destruct Hq; subst q; auto.
  - intros [X|X]; [destruct Hq; subst; discriminate|]. apply in_app_or in X as [X|[X|X]]; [|destruct Hq; subst; discriminate|auto].
    revert X. apply name_quote; auto.
Qed.
Lemma entlit_requote q q' lit v : entlit E q lit v -> ~ In q' lit -> entlit E q' lit v.
Proof.
  induction 1 as [|c t v L C1 C2 C3 C4 _ IH|t x t' v R X _ IH|n t v N _ IH]; intros Hn.
  - constructor.
  - constructor; auto; [|apply IH]; intros X; apply Hn; [left; auto|right; auto].
  - econstructor; [exact R|exact X|]. apply IH. intros Y. apply Hn. right. destruct (reference_part _ _ _ R) as (u & -> & _).
    apply in_or_app. right. exact Y.
  - apply en_bypass; auto. apply IH. intros Y. apply Hn. right. apply in_or_app. right. right. exact Y.
Qed.
Lemma attlit_free q lit v : q = 34 \/ q = 39 -> attlit q lit v -> ~ In q lit.
Proof.
  intros Hq. induction 1 as [|c t v L B C1 C2 C3 _ IH|c t v B _ _ IH|t x t' v R _ _ _ IH|t t' v R _ IH].
  - intros [].
  - intros [X|X]; auto.
  - intros [X|X]; [|auto]. subst c. destruct Hq; subst q; discriminate.
  - destruct (reference_part _ _ _ R) as (u & Eu & U1 & U2). rewrite Eu. intros [X|X]; [destruct Hq; subst; discriminate|].
    apply in_app_or in X as [X|X]; [|auto]. destruct Hq; subst q; auto.
  - destruct (reference_part _ _ _ R) as (u & Eu & U1 & U2). rewrite Eu. intros [X|X]; [destruct Hq; subst; discriminate|].
    apply in_app_or in X as [X|X]; [|auto]. destruct Hq; subst q; auto.
Qed.
Lemma attlit_requote q q' lit v : attlit q lit v -> ~ In q' lit -> attlit q' lit v.
Proof.
  induction 1 as [|c t v L B C1 C2 C3 _ IH|c t v B N _ IH|t x t' v R X Y _ IH|t t' v R _ IH]; intros Hn.
  - constructor.
  - constructor; auto; [|apply IH]; intros X; apply Hn; [left; auto|right; auto].
  - constructor; auto. apply IH. intros X. apply Hn. right. exact X.
  - econstructor; [exact R|exact X|exact Y|]. apply IH. intros Z. apply Hn. right. destruct (reference_part _ _ _ R) as (u & -> & _).
    apply in_or_app. right. exact Z.
  - econstructor; [exact R|]. apply IH. intros Z. apply Hn. right. destruct (reference_part _ _ _ R) as (u & -> & _).
    apply in_or_app. right. exact Z.
Qed.
(* the quotes that dumpQuotedString chooses do not occur *)
Lemma quote_of q lit : q = 34 \/ q = 39 -> ~ In q lit ->
  exists q', (q' = 34 \/ q' = 39) /\ ~ In q' lit /\ dumpQuotedString (utf8 lit) = utf8 ([q'] ++ lit ++ [q']).
Proof.
  intros Hq Hn. destruct (quoted_ok (utf8 lit)) as (q' & Hq' & Nn & Eq).
  { intros [H1 H2]. apply Hn. destruct Hq; subst q; apply utf8_In_ascii; auto; lia. }
  exists q'. split; [exact Hq'|]. split.
  - intros X. apply Nn. clear - X Hq'. induction lit as [|c u IH]; [destruct X|]. rewrite utf8_cons. apply in_or_app.
    destruct X as [->|X]; [left; destruct Hq'; subst q'; left; reflexivity|right; auto].
  - rewrite Eq, !utf8_app. destruct Hq'; subst q'; reflexivity.
Qed.
End Literals.

(* ---- one declaration ---- *)
(* singles that say the same *)
Inductive alike : single -> single -> Prop :=
| al_entity b n v : alike (OneEntity b n v) (OneEntity b n v)
| al_element p l sp sp' : spec_code sp' = spec_code sp -> (forall w, spec_lang sp' w <-> spec_lang sp w) ->
    alike (OneElement p l sp) (OneElement p l sp')
| al_attribute p l a a' : ad_name a' = ad_name a -> ad_type a' = ad_type a -> default_code (ad_default a') = default_code (ad_default a) ->
    default_value (ad_type a') (ad_default a') = default_value (ad_type a) (ad_default a) ->
    alike (OneAttribute p l a) (OneAttribute p l a').
Definition one (s : single) : decl :=
  match s with
  | OneEntity b n v => Doctype.DEntity b n v
  | OneElement p l sp => DElement p l sp
  | OneAttribute p l a => DAttlist p l [a]
  end.
Lemma singles_one ss : singles (map one ss) = ss.
Proof. induction ss as [|s ss IH]; [reflexivity|]. unfold singles in *. cbn [map flat_map]. rewrite IH. destruct s; reflexivity. Qed.

Lemma tokens_spaced ws : Forall (fun w => w <> [] /\ ~ In 32 w) ws -> tokens (spaced ws) = ws.
Proof.
  unfold tokens. induction 1 as [|w ws [Hw Nw] _ IH]; [reflexivity|]. destruct ws as [|w' ws].
  - cbn [spaced]. rewrite <- (app_nil_r w) at 1. rewrite split_skip by exact Nw. cbn [split_spaces app]. destruct w; [contradiction|reflexivity].
  - change (spaced (w :: w' :: ws)) with (w ++ [32] ++ spaced (w' :: ws)). rewrite split_skip by exact Nw. cbn [app split_spaces].
    change (32 =? 32) with true. cbv iota. destruct w; [contradiction|]. rewrite IH. reflexivity.
Qed.
Lemma tokens_words s : Forall (fun w => w <> [] /\ ~ In 32 w) (tokens s).
Proof.
  unfold tokens. assert (G : forall s cur, ~ In 32 cur -> Forall (fun w => w <> [] /\ ~ In 32 w) (split_spaces cur s)).
  { clear s. induction s as [|c s IH]; intros cur Hc; cbn [split_spaces].
    - destruct cur; constructor; [split; [discriminate|exact Hc]|constructor].
    - destruct (Z.eqb_spec c 32) as [->|Hn].
      + destruct cur; [apply IH; exact Hc|]. constructor; [split; [discriminate|exact Hc]|]. apply IH. intros [].
      + apply IH. intros X. apply in_app_or in X as [X|[X|[]]]; auto. }
  apply G. intros [].
Qed.
Lemma typed_twice t v : typed t (typed t v) = typed t v.
Proof. unfold typed. destruct (is_cdata t); [reflexivity|]. rewrite (tokens_spaced (tokens v)) by apply tokens_words. reflexivity. Qed.

Definition dumpDecl (x : data) : outcome herr str :=
  match x with
  | DElemDecl name prefix typ content => dumpElementDecl name prefix typ content
  | DAttrDecl elem name prefix atype def value enum => dumpAttributeDecl elem name prefix atype def value enum
  | Heap.DEntity name typ ext sys content orig => dumpEntityDecl name typ ext sys content orig
  | _ => Pan
  end.
Lemma dumpNode_decl h n p c t : hget h p = Some c -> dumpDecl (dat c) = Ret t -> dumpNode h (S n) p = Ret t.
Proof. intros H D. cbn [dumpNode]. rewrite H. destruct (dat c); try discriminate; exact D. Qed.

Section Decls.
Variable E : env.
Hypothesis OK : env_ok E.

Definition decl_written (s : single) (x : data) : Prop :=
  exists t s' ev, alike s s' /\ dumpDecl x = Ret (utf8 (t ++ [10])) /\ in_subset_event ev /\ comments [ev] = [] /\
    forall rest ds evs, subset E rest ds evs -> subset E (t ++ [10] ++ rest) (one s' :: ds) (ev :: evs).

Lemma entity_written (b : bool) n v q lit : ncname E n -> q = 34 \/ q = 39 -> entlit E q lit v ->
  decl_written (OneEntity b n v)
    (Heap.DEntity (utf8 n) (if b then InternalParameterEntity else InternalGeneralEntity) [] [] (utf8 v) (utf8 lit)).
Proof.
  intros Hn Hq L. destruct (quote_of q lit Hq (entlit_free E OK q lit v Hq L)) as (q' & Hq' & Nq & Eq).
  pose proof (entlit_requote E q q' lit v L Nq) as L'.
  assert (V : match utf8 lit with [] => dumpEntityContent (utf8 v) | _ => dumpQuotedString (utf8 lit) end = utf8 ([q'] ++ lit ++ [q'])).
  { rewrite <- Eq. destruct (utf8 lit) eqn:X; [|reflexivity]. apply Complete.utf8_nil in X. subst lit. inversion L; subst. reflexivity. }
  exists (s_ "<!ENTITY" ++ [32] ++ (if b then [37; 32] else []) ++ n ++ [32] ++ [q'] ++ lit ++ [q'] ++ [62]), (OneEntity b n v).
  eexists. split; [constructor|]. split; [|split; [|split; [|intros rest ds evs H]]].
  - cbn [dumpDecl]. unfold dumpEntityDecl. cbv zeta. rewrite V. destruct b; cbn [Z.eqb InternalParameterEntity InternalGeneralEntity]; f_equal;
      rewrite !utf8_app, <- !app_assoc; reflexivity.
  - instantiate (1 := EEntityDecl (utf8 n) (if b then InternalParameterEntity else InternalGeneralEntity) [] [] (utf8 v)). exact I.
  - reflexivity.
  - cbn [one]. rewrite <- !app_assoc. destruct b.
    + refine (su_param E [32] [32] n [32] q' lit v [] _ _ _ _ _ _ _ _ _ _ _ _ _ (su_blank E 10 _ _ _ eq_refl H)); try discriminate; try assumption; repeat constructor.
    + refine (su_general E [32] n [32] q' lit v [] _ _ _ _ _ _ _ _ _ _ _ (su_blank E 10 _ _ _ eq_refl H)); try discriminate; try assumption; repeat constructor.
Qed.

Lemma element_written p l sp m : pname E p l -> spec_fits E sp -> rereads sp -> stored E p l sp m ->
  decl_written (OneElement p l sp) (DElemDecl (utf8 l) (utf8 p) (spec_code sp) m).
Proof.
  intros Hn F R (t0 & T & S). pose proof (S (List.length t0) [] (le_n _)) as S0.
  rewrite (scan_decl E OK p l sp t0 T Hn F (List.length t0) [] (le_n _)) in S0. injection S0 as <-.
  assert (Ex : exists t, spec_text sp t) by (destruct T; eauto).
  destruct (dump_decl E p l sp F R Ex) as (t & s' & D & T' & F' & Ty & Mo).
  assert (Lang : forall w, spec_lang s' w <-> spec_lang sp w).
  { intros w. pose proof (spec_stored E s' F' w) as A. pose proof (spec_stored E sp F w) as B. rewrite Ty, Mo in A. tauto. }
  assert (Co : spec_code s' = spec_code sp) by (destruct s', sp; exact Ty).
  exists t, (OneElement p l s'), (EElementDecl (utf8 (qname p l)) (spec_code s') (spec_model s')). split; [|split; [|split; [|split]]].
  - constructor; assumption.
  - cbn [dumpDecl]. replace (spec_code sp) with (spec_type sp) by (destruct sp; reflexivity). rewrite D, utf8_app. reflexivity.
  - exact I.
  - reflexivity.
  - intros rest ds evs H. cbn [one]. apply su_element; auto; [| |apply su_blank; [reflexivity|exact H]].
    + intros w. replace (spec_code s') with (spec_type s') by (destruct s'; reflexivity). apply (spec_stored E s' F' w).
    + clear. destruct s'; cbn; split; intros X; try discriminate; try (destruct X; discriminate); auto.
Qed.

Lemma attribute_written p l a : pname E p l -> ncname E (ad_name a) -> ad_type a <> ENTITIES ->
  match ad_default a with
  | Fixed v | Default v => typed (ad_type a) v <> [] /\ verbatim (typed (ad_type a) v)
  | _ => True
  end ->
  decl_written (OneAttribute p l a)
      (DAttrDecl (utf8 (qname p l)) (utf8 (ad_name a)) [] (type_code (ad_type a)) (default_code (ad_default a))
         (default_value (ad_type a) (ad_default a)) []).
Proof.
  intros Hp Hn Ht Hd.
  assert (G : exists df u, default_code df = default_code (ad_default a) /\ default_value (ad_type a) df = default_value (ad_type a) (ad_default a) /\
    default_text df u /\ default_fits (ad_type a) df /\
    utf8 ([32] ++ u) = (if default_code (ad_default a) =? 1 then [] else if default_code (ad_default a) =? 2 then s_ " #REQUIRED"
       else if default_code (ad_default a) =? 3 then s_ " #IMPLIED" else s_ " #FIXED") ++
       match default_value (ad_type a) (ad_default a) with [] => [] | _ => s_ " " ++ dumpQuotedString (default_value (ad_type a) (ad_default a)) end).
  { destruct (ad_default a) as [| |v|v].
    - exists Required, (s_ "#REQUIRED"). do 2 (split; [reflexivity|]). split; [constructor|]. split; [exact I|reflexivity].
    - exists Implied, (s_ "#IMPLIED"). do 2 (split; [reflexivity|]). split; [constructor|]. split; [exact I|reflexivity].
    - destruct Hd as (Ne & q & lit & Hq & L & Ev). destruct (quote_of q lit Hq (attlit_free q lit _ Hq L)) as (q' & Hq' & Nq & Eq).
      pose proof (attlit_requote q q' lit _ L Nq) as L'.
      exists (Fixed (typed (ad_type a) v)), (s_ "#FIXED" ++ [32] ++ [q'] ++ lit ++ [q']). cbn [default_value default_code]. rewrite typed_twice.
      do 2 (split; [reflexivity|]). split; [|split].
      + constructor; auto; [discriminate|repeat constructor].
      + cbn [default_fits]. unfold typed in *. destruct (is_cdata (ad_type a)); [left; reflexivity|right; right].
        rewrite (tokens_spaced (tokens v)) by apply tokens_words. intros X. rewrite X in Ne. apply Ne. reflexivity.
      + cbn [Z.eqb DefFixed Pos.eqb]. destruct (typed (ad_type a) v) as [|z w] eqn:X; [contradiction|]. rewrite <- X in *. rewrite Ev, Eq, !utf8_app. reflexivity.
    - destruct Hd as (Ne & q & lit & Hq & L & Ev). destruct (quote_of q lit Hq (attlit_free q lit _ Hq L)) as (q' & Hq' & Nq & Eq).
      pose proof (attlit_requote q q' lit _ L Nq) as L'.
      exists (Default (typed (ad_type a) v)), ([q'] ++ lit ++ [q']). cbn [default_value default_code]. rewrite typed_twice.
      do 2 (split; [reflexivity|]). split; [|split].
      + constructor; auto.
      + cbn [default_fits]. unfold typed in *. destruct (is_cdata (ad_type a)); [left; reflexivity|right; right].
        rewrite (tokens_spaced (tokens v)) by apply tokens_words. intros X. rewrite X in Ne. apply Ne. reflexivity.
      + cbn [Z.eqb DefNone Pos.eqb]. destruct (typed (ad_type a) v) as [|z w] eqn:X; [contradiction|]. rewrite <- X in *. rewrite Ev, Eq, !utf8_app. reflexivity. }
  destruct G as (df & u & G1 & G2 & G3 & G4 & G5). set (a' := {| ad_name := ad_name a; ad_type := ad_type a; ad_default := df |}).
  exists (s_ "<!ATTLIST" ++ [32] ++ qname p l ++ [32] ++ (ad_name a' ++ [32] ++ keyword (ad_type a') ++ [32] ++ u) ++ [] ++ [62]), (OneAttribute p l a'), (attdef_event p l a').
  split; [|split; [|split; [|split]]].
  - constructor; auto.
  - cbn [dumpDecl]. unfold dumpAttributeDecl.
    set (K := fun t => obind (if _ : bool then _ else _) _).
    assert (KT : forall k, utf8 (keyword (ad_type a)) = k -> K (s_ " " ++ k) = Ret (s_ "<!ATTLIST " ++ utf8 (qname p l) ++ s_ " " ++ prefixed [] (utf8 (ad_name a)) ++ (s_ " " ++ k) ++ utf8 ([32] ++ u) ++ s_ ">" ++ [10])).
    { intros k Hk. unfold K. rewrite G5. destruct (ad_default a); cbn [default_code Z.eqb Pos.eqb DefRequired DefImplied DefFixed DefNone obind]; f_equal; rewrite <- !app_assoc; reflexivity. }
    assert (KK : K (s_ " " ++ utf8 (keyword (ad_type a))) = Ret (utf8 ((s_ "<!ATTLIST" ++ [32] ++ qname p l ++ [32] ++ (ad_name a' ++ [32] ++ keyword (ad_type a') ++ [32] ++ u) ++ [] ++ [62]) ++ [10]))).
    { rewrite (KT _ eq_refl). f_equal. cbn [prefixed a' ad_name ad_type]. rewrite !utf8_app, <- !app_assoc. reflexivity. }
    rewrite <- KK. destruct (ad_type a); try reflexivity. exfalso. apply Ht. reflexivity.
  - exact I.
  - reflexivity.
  - intros rest ds evs H. cbn [one]. rewrite <- !app_assoc.
    pose proof (su_attlist E [32] p l [32] [a'] _ ([10] ++ rest) ds evs ltac:(discriminate) ltac:(repeat constructor) Hp ltac:(discriminate) ltac:(repeat constructor)
      (ads_one E a' _ [] (adt E a' [32] [32] u ltac:(discriminate) ltac:(repeat constructor) ltac:(discriminate) ltac:(repeat constructor) Hn G3 G4) ltac:(constructor))
      (su_blank E 10 _ _ _ eq_refl H)) as P.
    rewrite <- !app_assoc in P. exact P.
Qed.
Lemma kept_written s x : kept E s x -> decl_written s x.
Proof. intros []; [eapply entity_written|apply element_written|apply attribute_written]; eassumption. Qed.

(* ---- all of them ---- *)
Lemma decls_written h ss dd : Forall2 (kept E) ss dd -> forall o, decls_at h o dd -> exists src ss' evs,
  Forall2 alike ss ss' /\ (forall n, (List.length dd < n)%nat -> dumpNodes h n o = Ret (utf8 src)) /\ Forall in_subset_event evs /\ comments evs = [] /\
  subset E src (map one ss') evs.
Proof.
  induction 1 as [|s x ss dd K _ IH]; intros o D.
  - inversion D; subst. exists [], [], []. split; [constructor|]. split; [intros [|n] Hn; reflexivity|]. split; [constructor|]. split; [reflexivity|constructor].
  - inversion D as [|p c r Hc Hr]; subst. destruct (IH _ Hr) as (src & ss' & evs & A & Dm & Fi & Co & Su).
    destruct (kept_written _ _ K) as (t & s' & ev & A1 & D1 & I1 & C1 & S1).
    exists (t ++ [10] ++ src), (s' :: ss'), (ev :: evs). split; [constructor; assumption|]. split; [|split; [|split]].
    + intros n Hn. destruct n as [|n]; [cbn in Hn; lia|]. cbn [List.length] in Hn. destruct n as [|n]; [lia|]. rewrite dumpNodes_step.
      rewrite (dumpNode_decl _ n _ _ _ Hc D1). cbn [obind]. rewrite Hc. rewrite Dm by lia. cbn [obind]. rewrite <- utf8_app, <- app_assoc. reflexivity.
    + constructor; assumption.
    + unfold comments in *. cbn [flat_map] in *. rewrite Co. exact C1.
    + cbn [map]. auto.
Qed.
End Decls.

(* ---- declarations that say the same mean the same ---- *)
Definition entity_of (s : single) : list (list Z * list Z) := match s with OneEntity false n v => [(n, v)] | _ => [] end.
Definition attribute_of (s : single) : list ((list Z * list Z) * attdef) := match s with OneAttribute p l a => [((p, l), a)] | _ => [] end.
Definition element_of (s : single) : list (list Z * list Z) := match s with OneElement p l _ => [(p, l)] | _ => [] end.
Definition parameter_of (s : single) : list (list Z) := match s with OneEntity true n _ => [n] | _ => [] end.
Lemma entities_singles ds : entities ds = flat_map entity_of (singles ds).
Proof.
  unfold entities, singles. induction ds as [|d ds IH]; [reflexivity|]. cbn [flat_map]. rewrite flat_map_app, <- IH. f_equal.
  destruct d as [[] n v|p l s|p l defs]; try reflexivity. induction defs; [reflexivity|assumption].
Qed.
Lemma declared_singles ds : declared ds = flat_map attribute_of (singles ds).
Proof.
  unfold declared, singles. induction ds as [|d ds IH]; [reflexivity|]. cbn [flat_map]. rewrite flat_map_app, <- IH. f_equal.
  destruct d as [[] n v|p l s|p l defs]; try reflexivity. induction defs as [|a defs IHd]; [reflexivity|]. cbn [map flat_map attribute_of app]. rewrite <- IHd. reflexivity.
Qed.
Lemma elements_singles ds : flat_map (fun d => match d with DElement p l _ => [(p, l)] | _ => [] end) ds = flat_map element_of (singles ds).
Proof.
  unfold singles. induction ds as [|d ds IH]; [reflexivity|]. cbn [flat_map]. rewrite flat_map_app, <- IH. f_equal.
  destruct d as [[] n v|p l s|p l defs]; try reflexivity. induction defs; [reflexivity|assumption].
Qed.
Lemma parameters_singles ds : flat_map (fun d => match d with Doctype.DEntity true n _ => [n] | _ => [] end) ds = flat_map parameter_of (singles ds).
Proof.
  unfold singles. induction ds as [|d ds IH]; [reflexivity|]. cbn [flat_map]. rewrite flat_map_app, <- IH. f_equal.
  destruct d as [[] n v|p l s|p l defs]; try reflexivity. induction defs; [reflexivity|assumption].
Qed.
Ltac alikes := match goal with h : Forall2 alike ?a ?b |- _ => generalize h; generalize a b; clear h; let B := fresh in intros ? ? B;
  induction B as [|? ? ? ? H _ IH]; [reflexivity|]; cbn [flat_map]; rewrite IH; destruct H; reflexivity end.
Section Alike.
Variables ds ds' : list decl.
Hypothesis A : Forall2 alike (singles ds) (singles ds').
Lemma alike_entities : entities ds' = entities ds.
Proof. rewrite !entities_singles. alikes. Qed.
Lemma alike_elements : elements_once ds -> elements_once ds'.
Proof.
  unfold elements_once. rewrite !elements_singles. intros H. replace (flat_map element_of (singles ds')) with (flat_map element_of (singles ds)); [exact H|].
  clear H. alikes.
Qed.
Lemma alike_parameters : parameters_once ds -> parameters_once ds'.
Proof.
  unfold parameters_once. rewrite !parameters_singles. intros H. replace (flat_map parameter_of (singles ds')) with (flat_map parameter_of (singles ds)); [exact H|].
  clear H. alikes.
Qed.
Definition same_def (x x' : (list Z * list Z) * attdef) : Prop :=
  fst x' = fst x /\ ad_name (snd x') = ad_name (snd x) /\ ad_type (snd x') = ad_type (snd x) /\
  default_value (ad_type (snd x')) (ad_default (snd x')) = default_value (ad_type (snd x)) (ad_default (snd x)).
Lemma alike_declared : Forall2 same_def (declared ds) (declared ds').
Proof.
  rewrite !declared_singles. generalize A. generalize (singles ds) (singles ds'). clear A. intros l l' B. induction B as [|s s' ss ss' H _ IH]; [constructor|]. cbn [flat_map].
  destruct H; cbn [attribute_of app]; try exact IH. constructor; [|exact IH]. unfold same_def. cbn [fst snd]. auto.
Qed.
Lemma alike_tokenised e a : tokenised ds' e a = tokenised ds e a.
Proof.
  unfold tokenised. pose proof alike_declared as D; induction D as [|x x' r r' (H1 & H2 & H3 & _) _ IH]; [reflexivity|]. cbn [existsb]. rewrite IH, H1, H2, H3. reflexivity.
Qed.
Lemma alike_defaults e : defaults ds' e = defaults ds e.
Proof.
  unfold defaults. pose proof alike_declared as D; induction D as [|x x' r r' (H1 & H2 & H3 & H4) _ IH]; [reflexivity|]. cbn [flat_map]. rewrite IH, H4, H1, H2. reflexivity.
Qed.
Lemma alike_fine : fine ds -> fine ds'.
Proof.
  unfold fine. rewrite alike_entities. intros (F1 & F2 & F3). split; [exact F1|]. split; [exact F2|].
  replace (map _ (declared ds')) with (map (fun x => (qname (fst (fst x)) (snd (fst x)), ad_name (snd x))) (declared ds)); [exact F3|].
  clear F1 F2 F3. pose proof alike_declared as D. induction D as [|x x' r r' (H1 & H2 & _) _ IH]; [reflexivity|]. cbn [map]. rewrite IH, H1, H2. reflexivity.
Qed.
End Alike.
Lemma alike_stands E s s' x : alike s s' -> stands_for E s' x -> stands_for E s x.
Proof.
  intros A H. destruct A as [b n v|p l sp sp' C L|p l a a' N T C V]; [exact H| |].
  - inversion H; subst. rewrite C in *. constructor. intros w. rewrite <- L. auto.
  - inversion H; subst. rewrite V, C, T, N. constructor.
Qed.
Lemma alike_look s s' d : alike s s' -> look d s' = look d s.
Proof. intros []; try reflexivity. cbn [look]. rewrite H. reflexivity. Qed.

(* ---- content without references to entities, under declarations ---- *)
Definition easy (ds : list decl) (e : event) : Prop :=
  match e with
  | EStartElement l p u ns a =>
      (forall al ap w, In (AAttr al ap w) a ->
        tokenised ds l al = tokenised ds (qualified p l) (qualified ap al) /\
        (tokenised ds l al = true -> spaced (tokens w) = w) /\
        ~ In (qualified ap al) (map fst (defaults ds (qualified p l)))) /\
      (forall dp v, In (Some (dp, v)) ns -> tokenised ds l (match dp with [] => s_ "xmlns" | _ => dp end) = false)
  | _ => True
  end.
Definition dress (ds : list decl) (e : event) : event :=
  match e with
  | EStartElement l p u ns a => EStartElement l p u ns (reported ds (qualified p l) a)
  | _ => e
  end.
Lemma qualified_utf8 p l : utf8 (qname p l) = qualified (utf8 p) (utf8 l).
Proof. apply name_utf8. Qed.
Section Enter.
Variable E : env.
Variable ds : list decl.
Lemma easy_typable p l a d u : easy ds (EStartElement (utf8 l) (utf8 p) u (map Some d) a) -> typable ds true p l a d.
Proof.
  intros [H1 H2]. split.
  - intros al ap v X. destruct (H1 al ap v X) as (A & B & C). rewrite qualified_utf8. split; [exact A|]. split; [|exact C].
    intros T. split; [reflexivity|]. specialize (B T). destruct (tokens v); [left|right; discriminate]. symmetry. exact B.
  - intros dp v X. apply (H2 dp v). apply in_map. exact X.
Qed.
Lemma enter_all : (forall ns s evs d, content E ns s evs d -> forall k, Forall (easy ds) evs -> dcontent E ds k true ns s (map (dress ds) evs) d) /\
  (forall ns s evs d, element E ns s evs d -> forall k, Forall (easy ds) evs -> delement E ds k true ns s (map (dress ds) evs) d).
Proof.
  set (P := fun ns s evs d => forall k, Forall (easy ds) evs -> dcontent E ds k true ns s (map (dress ds) evs) d).
  set (Q := fun ns s evs d => forall k, Forall (easy ds) evs -> delement E ds k true ns s (map (dress ds) evs) d).
  assert (G : (forall ns s evs d, content E ns s evs d -> P ns s evs d) /\ (forall ns s evs d, element E ns s evs d -> Q ns s evs d)).
  2:{ exact G. }
  split; [apply (content_mut E P Q)|apply (element_mut E P Q)]; unfold P, Q; intros; cbn [map dress];
    repeat match goal with h : Forall (easy ds) (_ ++ _) |- _ => apply Forall_app in h; destruct h
                         | h : Forall (easy ds) (_ :: _) |- _ => inversion h; clear h; subst end;
    rewrite ?map_app; cbn [map dress];
    try (solve [econstructor; eauto]);
    try rewrite <- qualified_utf8.
  all: try (apply de_empty; auto; eapply easy_typable; eassumption).
  all: try (apply de_full; auto; eapply easy_typable; eassumption).
Qed.
End Enter.

(* ---- trees: what is asked of their attributes ---- *)
Definition named (e : event) : Prop :=
  match e with
  | EStartElement l p u ns a => (p <> [] -> u <> []) /\ forall al ap w, In (AAttr al ap w) a -> ~ In 58 al /\ ~ In 58 ap
  | _ => True
  end.
Section Names.
Variable E : env.
Hypothesis OK : env_ok E.
Lemma ncname_58 n : ncname E n -> ~ In 58 (utf8 n).
Proof. intros Hn X. apply (utf8_In_ascii 58) in X; [|lia]. revert X. apply (ncname_no58 E OK), Hn. Qed.
Lemma qnamed_58 p l : qnamed E p l -> ~ In 58 (utf8 l) /\ ~ In 58 (utf8 p).
Proof. intros [[->|Hp] Hl]; (split; [apply ncname_58, Hl|]); [intros []|apply ncname_58, Hp]. Qed.
Lemma atts_named t a d : atts E t a d -> forall al ap w, In (AAttr al ap w) a -> ~ In 58 al /\ ~ In 58 ap.
Proof.
  induction 1 as [| |b l e1 e2 q lit v s a d _ _ _ _ _ _ _ _ _ _ _ _ _ IH|]; intros al ap w X; try (destruct X; fail).
  - destruct X as [X|X]; [|eauto]. injection X as <- <- _. apply qnamed_58. assumption.
  - eauto.
Qed.
Lemma start_named ns p l u t a d : scope_ok ns -> atts E t a d -> resolves (rev d ++ ns) (utf8 p) u ->
  named (EStartElement (utf8 l) (utf8 p) u (map Some d) a) /\ scope_ok (rev d ++ ns).
Proof.
  intros S A R. assert (S' : scope_ok (rev d ++ ns)).
  { apply Forall_app. split; [|exact S]. apply Forall_rev. apply Forall_forall. intros [x y] X. cbn [snd]. eapply (atts_values E); eassumption. }
  split; [|exact S']. split; [|eapply atts_named, A]. intros Hp. unfold resolves in R. destruct (bound (rev d ++ ns) (utf8 p)) as [u'|] eqn:B.
  - subst u'. apply XmlRound.bound_in in B as (p' & B). unfold scope_ok in S'. rewrite Forall_forall in S'. exact (S' _ B).
  - destruct R as [R _]. contradiction.
Qed.
Lemma named_all : (forall ns s evs d, content E ns s evs d -> scope_ok ns -> Forall named evs) /\
  (forall ns s evs d, element E ns s evs d -> scope_ok ns -> Forall named evs).
Proof.
  set (P := fun ns (s : list Z) evs (d : list (str * str)) => scope_ok ns -> Forall named evs).
  assert (G : (forall ns s evs d, content E ns s evs d -> P ns s evs d) /\ (forall ns s evs d, element E ns s evs d -> P ns s evs d)).
  2:{ exact G. }
  assert (C0 : forall e evs (X : Prop), named e -> (X -> Forall named evs) -> X -> Forall named (e :: evs)) by (intros; constructor; auto).
  split; [apply (content_mut E P P)|apply (element_mut E P P)]; unfold P; clear P;
    try (intros; first [constructor; fail|apply C0 with (X := True); [exact I|intros _; auto|exact I]]; fail).
  - intros ns x s evs1 d1 evs d _ IH1 _ IH2 S. apply Forall_app. auto.
  - intros ns p l t a d u _ A R S. destruct (start_named ns p l u t a d S A R) as [N _]. constructor; [exact N|]. constructor; [exact I|constructor].
  - intros ns p l t a d u s evs d1 _ A R _ IH _ S. destruct (start_named ns p l u t a d S A R) as [N S'].
    apply Forall_app. split; [constructor; [exact N|constructor]|]. apply Forall_app. split; [auto|repeat constructor].
  - intros ns x s evs1 d1 evs d _ IH1 _ IH2 S. apply Forall_app. auto.
  - intros ns p l t a d u _ A R S. destruct (start_named ns p l u t a d S A R) as [N _]. constructor; [exact N|]. constructor; [exact I|constructor].
  - intros ns p l t a d u s evs d1 _ A R _ IH _ S. destruct (start_named ns p l u t a d S A R) as [N S'].
    apply Forall_app. split; [constructor; [exact N|constructor]|]. apply Forall_app. split; [auto|repeat constructor].
Qed.
End Names.

Lemma local_of ap al : ~ In 58 al -> ~ In 58 ap -> local_part (att_name ap al) = al.
Proof.
  intros Hl Hp. assert (N : forall s, ~ In 58 s -> after_colon s = None).
  { induction s as [|c s IH]; intros H; [reflexivity|]. cbn [after_colon]. destruct (Z.eqb_spec c 58) as [->|]; [exfalso; apply H; left; reflexivity|].
    apply IH. intros X. apply H. right. exact X. }
  assert (K : forall p, ~ In 58 p -> after_colon (p ++ 58 :: al) = Some al).
  { induction p as [|c p IH]; intros H; [reflexivity|]. cbn [app after_colon]. destruct (Z.eqb_spec c 58) as [->|]; [exfalso; apply H; left; reflexivity|].
    apply IH. intros X. apply H. right. exact X. }
  unfold local_part, att_name. destruct ap as [|c ap]; [rewrite N by exact Hl; reflexivity|].
  change ((c :: ap) ++ s_ ":" ++ al) with ((c :: ap) ++ 58 :: al). rewrite K by exact Hp. reflexivity.
Qed.

(* normalised before escaping and after *)
Lemma utf8_blocks rs : utf8 rs = flat_map (fun r => utf8 [r]) rs.
Proof. induction rs as [|r rs IH]; [reflexivity|]. rewrite utf8_cons, IH. reflexivity. Qed.
Lemma spaced_utf8 rs : spaced (tokens (utf8 rs)) = utf8 (spaced (tokens rs)).
Proof.
  rewrite !utf8_blocks. set (f := fun r => utf8 [r]). unfold tokens. change (@nil Z) with (flat_map f []) at 1.
  assert (f32 : f 32 = [32]) by reflexivity.
  rewrite split_blocks; [apply spaced_blocks, f32|exact f32| |].
  - intros r X. unfold f in X. apply Complete.utf8_nil in X. discriminate.
  - intros r Hr X. unfold f in X. apply utf8_In_ascii in X; [|lia]. destruct X as [X|[]]. auto.
Qed.
Lemma spaced_amp rs : Forall (fun r => valid_rune r = true) rs -> spaced (tokens (utf8 rs)) = utf8 rs ->
  spaced (tokens (utf8 (amp_escaped rs))) = utf8 (amp_escaped rs).
Proof.
  intros V H. rewrite spaced_utf8 in H. apply utf8_inj in H; [|apply spaced_all; [reflexivity|apply split_all; [exact V|constructor]]|exact V].
  assert (B : forall rs, utf8 (amp_escaped rs) = flat_map (fun r => utf8 (if r =? 38 then s_ "&#38;" else [r])) rs).
  { clear. induction rs as [|r rs IH]; [reflexivity|]. rewrite amp_cons, utf8_app, IH. reflexivity. }
  rewrite <- H at 2. rewrite !B. set (f := fun r => utf8 (if r =? 38 then s_ "&#38;" else [r])). unfold tokens. change (@nil Z) with (flat_map f []) at 1.
  assert (f32 : f 32 = [32]) by reflexivity.
  rewrite split_blocks; [apply spaced_blocks, f32|exact f32| |].
  - intros r X. unfold f in X. apply Complete.utf8_nil in X. destruct (r =? 38); discriminate.
  - intros r Hr X. unfold f in X. destruct (Z.eqb_spec r 38) as [->|]; [vm_compute in X; intuition discriminate|].
    apply utf8_In_ascii in X; [|lia]. destruct X as [X|[]]. auto.
Qed.

Lemma mirrors_in a atts : mirrors_atts a atts -> forall al ap w, In (AAttr al ap w) a ->
  exists rs, Forall (fun r => valid_rune r = true) rs /\ w = utf8 (amp_escaped rs) /\ In (att_name ap al, utf8 rs) atts.
Proof.
  induction 1 as [|l p rs a b V _ IH|l p raw a b _ IH]; intros al ap w X; [destruct X| |].
  - destruct X as [X|X]; [injection X as <- <- <-; exists rs; split; [exact V|]; split; [reflexivity|left; reflexivity]|].
    destruct (IH _ _ _ X) as (rs' & V' & W & I'). exists rs'. split; [exact V'|]. split; [exact W|right; exact I'].
  - destruct X as [X|X]; [discriminate|eauto].
Qed.
Section Calm.
Variable ds : list decl.
Lemma calm_easy evs xs : mirrors evs xs -> Forall (calm ds) xs -> Forall named evs -> Forall (easy ds) evs.
Proof.
  induction 1 as [|tevs ts evs xs Ne T S _ IH|s evs xs _ IH|t d evs xs _ IH|l p u ns atts atts' body kids l' p' u' evs xs Ma Nd _ IHb _ IH]; intros C N.
  - constructor.
  - inversion C; subst. apply Forall_app in N as [_ N]. apply Forall_app. split; [|auto].
    clear - T. induction T as [|e t tevs ts [->| ->] _ IH]; constructor; auto; exact I.
  - inversion C; inversion N; subst. constructor; [exact I|auto].
  - inversion C; inversion N; subst. constructor; [exact I|auto].
  - inversion C as [|? ? C1 C2]; subst. inversion N as [|? ? N1 N2]; subst. apply Forall_app in N2 as [N2 N3]. inversion N3; subst.
    inversion C1 as [? ? ? ? ? Ca Cd Ck| |]; subst. constructor; [|apply Forall_app; split; [auto|constructor; [exact I|auto]]].
    destruct N1 as [Np Na].
    assert (Q : quoted_name (space p u) l = qualified p l).
    { unfold space, quoted_name, qualified. destruct u; [|reflexivity]. destruct p; [reflexivity|]. exfalso. apply Np; [discriminate|reflexivity]. }
    rewrite Q in Ca. split.
    + intros al ap w X. destruct (mirrors_in _ _ Ma _ _ _ X) as (rs & V & -> & Y). destruct (Na _ _ _ X) as [Hl Hp].
      rewrite Forall_forall in Ca. destruct (Ca _ Y) as (A1 & A2 & A3). cbn [fst snd] in *. rewrite local_of in A1 by assumption.
      change (att_name ap al) with (qualified ap al) in *. split; [exact A1|]. split; [|exact A3].
      intros Tk. rewrite A1 in Tk. apply spaced_amp; [exact V|]. exact (A2 Tk).
    + intros dp v X. apply in_map_iff in X as (d & Eq & X). injection Eq as ->. rewrite Forall_forall in Cd. specialize (Cd _ X). destruct dp; exact Cd.
Qed.
Lemma reported_mirrors e l a atts : (forall al ap w, In (AAttr al ap w) a -> tokenised ds e (qualified ap al) = true -> spaced (tokens w) = w) ->
  mirrors_atts a atts -> mirrors_atts (map (value_of ds e) a ++ map (fun x => ADefault (fst x) [] (snd x)) l) atts.
Proof.
  intros H M. induction M as [|al p rs a b V M IH|al p raw a b M IH].
  - cbn [map app]. induction l; [constructor|]. cbn [map]. apply ma_default. assumption.
  - cbn [map app value_of]. destruct (tokenised ds e (qualified p al)) eqn:T.
    + rewrite (H al p _ (or_introl eq_refl) T). constructor; [exact V|]. apply IH. intros al' ap' w X. apply H. right. exact X.
    + constructor; [exact V|]. apply IH. intros al' ap' w X. apply H. right. exact X.
  - cbn [map app value_of]. apply ma_default. apply IH. intros al' ap' w X. apply H. right. exact X.
Qed.
Lemma dress_mirrors evs xs : mirrors evs xs -> Forall (easy ds) evs -> mirrors (map (dress ds) evs) xs.
Proof.
  induction 1 as [|tevs ts evs xs Ne T S _ IH|s evs xs _ IH|t d evs xs _ IH|l p u ns atts atts' body kids l' p' u' evs xs Ma Nd _ IHb _ IH]; intros N.
  - constructor.
  - apply Forall_app in N as [_ N]. rewrite map_app. replace (map (dress ds) tevs) with tevs.
    + apply mi_text; auto. intros (e & t & r & Er & Te). apply S. destruct evs as [|e' evs]; [discriminate|]. cbn [map] in Er. injection Er as <- _.
      exists e', t, evs. split; [reflexivity|]. destruct e'; try (destruct Te as [X|X]; discriminate X); exact Te.
    + clear - T. induction T as [|e t tevs ts [->| ->] _ IH]; [reflexivity| |]; cbn [map dress]; rewrite <- IH; reflexivity.
  - inversion N; subst. cbn [map dress]. constructor; auto.
  - inversion N; subst. cbn [map dress]. constructor; auto.
  - inversion N as [|? ? Ne N2]; subst. destruct Ne as [N1 _]. apply Forall_app in N2 as [N2 N3]. inversion N3; subst. cbn [map dress]. rewrite map_app. cbn [map dress].
    constructor; auto. apply reported_mirrors; [|exact Ma]. intros al ap w X T. destruct (N1 al ap w X) as (A & B & _). apply B. rewrite A. exact T.
Qed.
Lemma calm_glue x xs : calm ds x -> Forall (calm ds) xs -> Forall (calm ds) (glue x xs).
Proof.
  intros C F. destruct x as [nm sp defs atts kids|[|c s]|s|t d|nm]; cbn [glue]; try (constructor; assumption); [assumption|].
  destruct xs as [|[]]; try (constructor; assumption). inversion F; subst. constructor; [constructor|assumption].
Qed.
Lemma calm_norm x : calm ds x -> calm ds (Tidy.norm x).
Proof.
  induction x as [nm sp defs atts kids IH| | | |] using xnode_rec'; intros C; try exact C. inversion C as [? ? ? ? ? Ca Cd Ck| |]; subst. cbn [Tidy.norm].
  constructor; [exact Ca|exact Cd|]. clear - IH Ck. induction IH as [|y r Hy Hr IH]; [constructor|]. inversion Ck; subst. cbn [fold_right].
  apply calm_glue; auto.
Qed.
Lemma calm_norms l : Forall (calm ds) l -> Forall (calm ds) (Tidy.norms l).
Proof. induction 1 as [|x l C _ IH]; [constructor|]. apply calm_glue; [apply calm_norm, C|exact IH]. Qed.
End Calm.

Lemma calm_alike ds ds' x : Forall2 alike (singles ds) (singles ds') -> calm ds x -> calm ds' x.
Proof.
  intros A. induction x as [nm sp defs atts kids IH| | | |] using xnode_rec'; intros C; inversion C as [? ? ? ? ? Ca Cd Ck| |]; subst; constructor.
  - eapply Forall_impl; [|exact Ca]. intros y. unfold calm_att. rewrite !(alike_tokenised _ _ A), (alike_defaults _ _ A). auto.
  - eapply Forall_impl; [|exact Cd]. intros y. unfold calm_def. rewrite !(alike_tokenised _ _ A). auto.
  - rewrite Forall_forall in *. auto.
Qed.

(* ---- the text of a document with an internal subset ---- *)
Lemma lookup_no_decls h d v e s name t dtd c cd x y : hget h d = Some c -> dat c = DDoc v e s (Some dtd) None ->
  hget h dtd = Some cd -> dat cd = DDtd name [] [] t -> answered h d x y -> no_decls t = false.
Proof.
  intros Hc Dc Hd Dd (q & cq & L & _).
  assert (G : getDoc d h = (Ret (v, e, s, Some dtd, None), h)).
  { unfold getDoc, hbind, getc. rewrite Hc, Dc. reflexivity. }
  assert (G2 : getDtd dtd h = (Ret (name, [], [], t), h)).
  { unfold getDtd, hbind, getc. rewrite Hd, Dd. reflexivity. }
  destruct (no_decls t) eqn:Nd; [|reflexivity]. exfalso. unfold no_decls in Nd.
  destruct (t_ents t) eqn:T1; [|discriminate]. destruct (t_elems t) eqn:T2; [|discriminate]. destruct (t_pents t) eqn:T3; [|discriminate].
  destruct (t_attrs t) eqn:T4; [|discriminate].
  destruct x as [[] n w|p l sp|p l a]; cbn [look] in L; unfold GetEntity, GetParameterEntity, LookupEntity, LookupParameterEntity, LookupElement, LookupAttribute, deref in L;
    rewrite ?(hbind_ret _ _ _ _ _ G) in L; unfold hret in L; cbn beta iota in L; unfold hbind in L; rewrite ?G in L; cbn beta iota in L; rewrite G2 in L; cbn [snd] in L;
    rewrite ?T1, ?T2, ?T3, ?T4 in L; discriminate.
Qed.

Lemma lines_written h ks xs : Forall2 (node_is h) ks xs -> writables xs -> forall o rest r k0, TreeShape.path h o (ks ++ rest) ->
  (forall o' k, TreeShape.path h o' rest -> (k0 <= k)%nat -> dumpLines h k o' = Ret r) ->
  forall k, (2 * xsizes xs + k0 < k)%nat -> dumpLines h k o = Ret (lines xs ++ r).
Proof.
  induction 1 as [|p x ks xs N _ IH]; intros W o rest r k0 P R k Hk.
  - apply R; [exact P|]. cbn [xsizes fold_right] in Hk. lia.
  - inversion P as [|q c l Hc Hn]; subst. destruct W as [W1 W2]. cbn [xsizes fold_right] in Hk. fold (xsizes xs) in Hk. assert (X := xsize_pos x).
    destruct k as [|k]; [lia|]. cbn [dumpLines]. rewrite (proj1 (dump_texts h) _ _ N W1) by lia. cbn [obind]. rewrite Hc.
    rewrite (IH W2 _ _ _ _ Hn R) by lia. cbn [obind]. unfold lines. cbn [flat_map]. fold (lines xs). rewrite <- !app_assoc. reflexivity.
Qed.
Definition doctype_text (name s : str) (none : bool) : str :=
  s_ "<!DOCTYPE " ++ name ++ s_ " " ++ (if none then s_ ">" else s_ "[" ++ [10] ++ s ++ s_ "]>").
Lemma document_written E h d v e s xs1 name dd xs2 ss : env_ok E -> document_has h d v e s xs1 name dd xs2 -> writables xs1 -> writables xs2 ->
  Forall2 (kept E) ss dd -> Forall2 (answered h d) ss dd ->
  exists src ss' evs none, Forall2 alike ss ss' /\ Forall in_subset_event evs /\ comments evs = [] /\ subset E src (map one ss') evs /\
    (none = true -> dd = []) /\ exists k0, forall k, (k0 <= k)%nat ->
    dumpDoc h k d = Ret (dumpDocContent v e s ++ lines xs1 ++ doctype_text name (utf8 src) none ++ [10] ++ lines xs2).
Proof.
  intros OK (c & dtd & cd & t & k1 & k2 & Hc & Dc & P & F1 & F2 & Hd & Dd & De) W1 W2 K An.
  destruct (decls_written E OK h _ _ K _ De) as (src0 & ss' & evs & A & Dn & Ie & Ce & Su).
  exists src0, ss', evs, (no_decls t). do 4 (split; [assumption|]). set (src := utf8 src0) in *. split.
  { intros Nd. destruct An as [|x y ss dd Ay _]; [reflexivity|]. exfalso. rewrite (lookup_no_decls _ _ _ _ _ _ _ _ _ _ _ _ Hc Dc Hd Dd Ay) in Nd. discriminate. }
  assert (R2 : forall o k, TreeShape.path h o k2 -> (2 * xsizes xs2 + 2 <= k)%nat -> dumpLines h k o = Ret (lines xs2)).
  { intros o k Po Hk. rewrite <- (app_nil_r (lines xs2)). eapply (lines_written h k2 xs2 F2 W2 o [] [] 0); [rewrite app_nil_r; exact Po| |lia].
    intros o' k' Po' _. inversion Po'; subst. destruct k'; reflexivity. }
  assert (R1 : forall o k, TreeShape.path h o (dtd :: k2) -> (2 * xsizes xs2 + List.length dd + 10 <= k)%nat ->
    dumpLines h k o = Ret (doctype_text name src (no_decls t) ++ [10] ++ lines xs2)).
  { intros o k Po Hk. inversion Po as [|q c' l Hq Hn]; subst. assert (c' = cd) by congruence. subst c'. destruct k as [|k]; [lia|]. cbn [dumpLines].
    assert (Dx : dumpNode h k dtd = Ret (doctype_text name src (no_decls t))).
    { destruct k as [|k]; [lia|]. cbn [dumpNode]. rewrite Hd, Dd. unfold doctype_text. destruct (no_decls t); [unfold dumpDTDHead; rewrite <- !app_assoc; reflexivity|].
      rewrite Dn by lia. cbn [obind]. unfold dumpDTDHead. rewrite <- !app_assoc. reflexivity. }
    rewrite Dx. cbn [obind]. rewrite Hd. rewrite (R2 _ _ Hn) by lia. reflexivity. }
  exists (2 * xsizes xs1 + 2 * xsizes xs2 + List.length dd + 20)%nat. intros k Hk. unfold dumpDoc. destruct k as [|k]; [lia|].
  replace (dumpNode h k d) with (Ret (E := herr) (dumpDocContent v e s)) by (destruct k as [|k]; [lia|]; cbn [dumpNode]; rewrite Hc, Dc; reflexivity).
  cbn [obind]. rewrite Hc. rewrite (lines_written h k1 xs1 F1 W1 _ _ _ _ P R1) by lia. reflexivity.
Qed.

(* ---- reading it back ---- *)
Lemma root_skip e1 r : Forall (fun e => forall l p u ns a, e <> EStartElement l p u ns a) e1 -> root_spaces (e1 ++ r) = root_spaces r.
Proof.
  induction 1 as [|e e1 He _ IH]; [reflexivity|]. destruct e; try exact IH. exfalso. exact (He _ _ _ _ _ eq_refl).
Qed.
Lemma values_bound evs : exists m0, forall m, (m0 <= m)%nat -> (evs_len evs < m)%nat /\ Forall (fun e => (value_len e < m)%nat) evs.
Proof.
  assert (X : exists k, Forall (fun e => (value_len e < k)%nat) evs).
  { induction evs as [|e evs (k & IH)]; [exists 0%nat; constructor|]. exists (S (value_len e) + k)%nat. constructor; [lia|].
    eapply Forall_impl; [|exact IH]. cbv beta. intros; lia. }
  destruct X as (k & F). exists (S (evs_len evs) + k)%nat. intros m Hm. split; [lia|]. eapply Forall_impl; [|exact F]. cbv beta. intros; lia.
Qed.
Section Final.
Variable E : env.
Hypothesis OK : env_ok E.
Lemma written_document hd v enc sa xs1 p0 l0 src es none ds xs2 :
  xml_decl hd v enc sa -> (forall n, enc = Some n -> utf8_name n) -> pname E p0 l0 ->
  Forall is_comment xs1 -> tidies E [] xs1 -> tidy_document E xs2 -> Forall (calm ds) xs2 -> fine ds ->
  subset E src ds es -> Forall in_subset_event es -> comments es = [] -> (none = true -> ds = []) ->
  exists text evs d, utf8 text = utf8 (hd ++ [10]) ++ lines xs1 ++ doctype_text (utf8 (qname p0 l0)) (utf8 src) none ++ [10] ++ lines xs2 /\
    ddocument E text {| di_version := v; di_encoding := enc; di_standalone := sa |} ds evs d /\ declared_once evs d /\
    dmirrors evs xs1 (utf8 (qname p0 l0)) (Tidy.norms xs2) /\ no_text (Tidy.norms xs2).
Proof.
  intros Xd Ue Pn F0 T0 (T & c1 & nm & sp & defs & at_ & kids & c2 & -> & F1 & F2 & Nd & Df) C Fi Su In_ Co No.
  apply tidies_app in T as [T1 T]. inversion T as [|? x xs Tx T2]; subst. clear T.
  destruct (comments_round E _ _ F0 T0) as (s0 & e0 & M0 & Es0 & Mi0 & Cm0).
  destruct (comments_round E _ _ F1 T1) as (s1 & e1 & M1 & Es1 & Mi1 & Cm1).
  destruct (comments_round E _ _ F2 T2) as (s2 & e2 & M2 & Es2 & Mi2 & Cm2).
  destruct (proj2 (proj1 (round_all E) _ _ Tx (Forall_nil _)) _ _ _ _ _ eq_refl) as (sx & l & p & u & a & defs' & rest & Es & El & (nm' & sp' & at' & kids' & Eq) & Mi).
  injection Eq as <- <- <- <- <-.
  set (x := XElem nm sp defs at_ kids) in *. set (ev := EStartElement l p u (map Some defs) a :: rest) in *.
  assert (Mx : mirrors ev [Tidy.norm x]).
  { specialize (Mi [] [] mi_nil). rewrite app_nil_r in Mi. exact Mi. }
  assert (Cx : calm ds x). { apply Forall_app in C as [_ C]. inversion C; assumption. }
  assert (Ez : Forall (easy ds) ev).
  { eapply calm_easy; [exact Mx| |].
    - constructor; [|constructor]. apply calm_norm, Cx.
    - eapply (proj2 (named_all E OK)); [exact El|constructor]. }
  pose proof (proj2 (enter_all E ds) _ _ _ _ El max_entity_depth Ez) as De.
  set (nm0 := utf8 (qname p0 l0)).
  set (es' := if none then [] else es).
  assert (Dt : exists x0, utf8 x0 = doctype_text nm0 (utf8 src) none /\ doctype E x0 ds (EInternalSubset nm0 [] [] :: es' ++ [EExternalSubset nm0 [] []])).
  { unfold es', doctype_text. destruct none.
    - rewrite (No eq_refl). exists (s_ "<!DOCTYPE" ++ [32] ++ qname p0 l0 ++ [32] ++ [62]). split; [rewrite !utf8_app; reflexivity|].
      apply dt_plain; [discriminate|repeat constructor|exact Pn|repeat constructor].
    - exists (s_ "<!DOCTYPE" ++ [32] ++ qname p0 l0 ++ [32] ++ [91] ++ (10 :: src) ++ [93] ++ [] ++ [62]). split.
      + rewrite !utf8_app, (utf8_cons 10 src). rewrite <- ?app_assoc. reflexivity.
      + apply dt_subset; [discriminate|repeat constructor|exact Pn|repeat constructor|apply su_blank; [reflexivity|exact Su]|constructor]. }
  destruct Dt as (x0 & Ex0 & Dt).
  assert (In' : Forall in_subset_event es') by (unfold es'; destruct none; [constructor|exact In_]).
  assert (Co' : comments es' = []) by (unfold es'; destruct none; [reflexivity|exact Co]).
  exists (hd ++ (10 :: s0) ++ x0 ++ (10 :: s1) ++ sx ++ (10 :: s2)),
    (e0 ++ (EInternalSubset nm0 [] [] :: es' ++ [EExternalSubset nm0 [] []]) ++ e1 ++ map (dress ds) ev ++ e2), (defs_of x).
  assert (Nr : Tidy.norms (c1 ++ [x] ++ c2) = c1 ++ [Tidy.norm x] ++ c2).
  { rewrite norms_comments by exact F1. cbn [app Tidy.norms fold_right]. fold (Tidy.norms c2). rewrite (norms_all_comments c2 F2). reflexivity. }
  split; [|split; [|split; [|split]]].
  - unfold lines. rewrite !flat_map_app. cbn [flat_map]. fold (lines xs1) (lines c1) (lines c2). rewrite <- Es0, <- Es1, <- Es2, <- Es, <- Ex0, app_nil_r.
    rewrite !utf8_app, (utf8_cons 10 s0), (utf8_cons 10 s1), (utf8_cons 10 s2). rewrite <- !app_assoc. reflexivity.
  - apply dd_decl; auto; apply m_blank; auto.
  - split; [exact Nd|]. intros H. apply Df in H.
    assert (Cs : forall e, (forall y, In y e -> exists s, y = EComment s) -> Forall (fun e => forall l p u ns a, e <> EStartElement l p u ns a) e).
    { intros e He. apply Forall_forall. intros y Hy. destruct (He y Hy) as (s & ->). discriminate. }
    rewrite root_skip by (apply Cs, Cm0). rewrite root_skip.
    2:{ constructor; [discriminate|]. apply Forall_app. split; [|constructor; [discriminate|constructor]].
        eapply Forall_impl; [|exact In']. intros [] K; try contradiction; discriminate. }
    rewrite root_skip by (apply Cs, Cm1). cbn [ev map dress app root_spaces].
    apply in_map_iff in H as ([k w] & Hk & Hin). cbn in Hk. subst k. exists w. apply in_map_iff. exists ([], w). auto.
  - rewrite Nr. assert (Dm : dmirrors (e0 ++ (EInternalSubset nm0 [] [] :: es' ++ [EExternalSubset nm0 [] []]) ++ e1 ++ map (dress ds) ev ++ e2) xs1 nm0 (comments es' ++ c1 ++ [Tidy.norm x] ++ c2)).
    2:{ rewrite Co' in Dm. exact Dm. }
    constructor; [| exact In'|].
    + specialize (Mi0 [] [] mi_nil). rewrite !app_nil_r in Mi0. exact Mi0.
    + apply Mi1. specialize (Mi2 [] [] mi_nil). rewrite !app_nil_r in Mi2. cbn [app].
      replace (map (dress ds) ev ++ e2) with (map (dress ds) (ev ++ e2)).
      * apply dress_mirrors; [apply Mi, Mi2|]. apply Forall_app. split; [exact Ez|]. apply Forall_forall. intros y Hy. destruct (Cm2 y Hy) as (s & ->). exact I.
      * rewrite map_app. f_equal. clear - Cm2. induction e2 as [|y e2 IH]; [reflexivity|]. cbn [map].
        rewrite IH by (intros z Hz; apply Cm2; right; exact Hz). destruct (Cm2 y (or_introl eq_refl)) as (s & ->). reflexivity.
  - rewrite Nr. rewrite Forall_forall in F1, F2. intros s H.
    apply in_app_or in H as [H|[H|H]]; [apply F1 in H as [? H]|cbn in H|apply F2 in H as [? H]]; discriminate.
Qed.

Theorem declared_round_trip h d v e sa xs1 name dd xs2 ds p0 l0 :
  document_has h d v e (sa_code sa) xs1 name dd xs2 -> name = utf8 (qname p0 l0) -> pname E p0 l0 ->
  Forall is_comment xs1 -> tidies E [] xs1 -> tidy_document E xs2 -> writables (xs1 ++ xs2) -> Forall (calm ds) xs2 ->
  fine ds -> elements_once ds -> parameters_once ds ->
  Forall2 (kept E) (singles ds) dd -> Forall2 (answered h d) (singles ds) dd ->
  (v = [] \/ version_num v) -> (e = [] \/ (enc_name e /\ utf8_name e)) ->
  exists t, (exists k0, forall k, (k0 <= k)%nat -> dumpDoc h k d = Ret t) /\
  exists m0, forall m, (m0 <= m)%nat -> exists N, forall n, (N <= n)%nat ->
  exists s' p dd', Parse E tb (treeH m) n tb_init t = (Ret tt, s') /\ tb_doc (hs s') = Some p /\ wf (tb_heap (hs s')) /\
    document_has (tb_heap (hs s')) p (version_of v) e (sa_code sa) xs1 name dd' (Tidy.norms xs2) /\
    Forall2 (stands_for E) (singles ds) dd' /\ Forall2 (answered (tb_heap (hs s')) p) (singles ds) dd'.
Proof.
  intros Has -> Pn F0 T0 T W C Fi Eo Po K An V En.
  assert (W' : writables xs1 /\ writables xs2).
  { clear - W. induction xs1 as [|x xs1 IH]; [split; [exact I|exact W]|]. destruct W as [W1 W2]. destruct (IH W2). split; [split; assumption|assumption]. }
  destruct W' as [W1 W2].
  destruct (document_written E h d v e (sa_code sa) xs1 _ dd xs2 _ OK Has W1 W2 K An) as (src & ss' & es & none & A & Ie & Ce & Su & No & k0 & Dm).
  assert (A' : Forall2 alike (singles ds) (singles (map one ss'))) by (rewrite singles_one; exact A).
  destruct (NestedProofs.header_decl v e sa V) as (hd & Eh & Xd); [tauto|].
  destruct (written_document hd _ _ _ xs1 p0 l0 src es none (map one ss') xs2 Xd) as (text & evs & dn & Et & Dc & Once & M & Nt); auto.
  - intros n Hn. destruct e as [|b e]; [discriminate|]. injection Hn as <-. destruct En as [En|[_ En]]; [discriminate|exact En].
  - eapply Forall_impl; [|exact C]. intros x. apply calm_alike. exact A'.
  - apply (alike_fine _ _ A'). exact Fi.
  - intros Hn. apply No in Hn. subst dd. inversion K as [Hs|]. rewrite <- Hs in A. inversion A. reflexivity.
  - assert (Ah : Forall (fun c => 0 <= c < 128) (hd ++ [10])).
    { rewrite <- Eh. apply header_ascii; tauto. }
    rewrite (utf8_ascii _ Ah), <- Eh in Et. rewrite <- Et in Dm. exists (utf8 text). split; [exists k0; exact Dm|].
    destruct (values_bound evs) as (m0 & Hm0). exists m0. intros m Hm. destruct (Hm0 m Hm) as [H1 H2].
    destruct (document_tree E text _ _ evs dn xs1 _ _ m OK Dc Once M Nt (alike_elements _ _ A' Eo) H1 H2) as (N & Run). exists N. intros n Hn.
    destruct (Run [] n (or_introl eq_refl) Hn) as (s' & p & dd' & Ps & Pd & Pw & Ph & Pst & Pan).
    exists s', p, dd'. split; [exact Ps|]. split; [exact Pd|]. split; [exact Pw|]. split; [destruct e; exact Ph|].
    specialize (Pan (alike_parameters _ _ A' Po)). rewrite singles_one in Pst, Pan. split.
    + clear - A Pst. revert dd' Pst. induction A as [|x x' ss ss' Ax _ IH]; intros dd' F; inversion F; subst; constructor; eauto using alike_stands.
    + clear - A Pan. revert dd' Pan. induction A as [|x x' ss ss' Ax _ IH]; intros dd' F; inversion F as [|? y ? ? (q & c & Lk & R)]; subst; constructor; eauto.
      exists q, c. rewrite <- (alike_look _ _ _ Ax). auto.
Qed.
End Final.
